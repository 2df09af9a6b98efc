(** C61: the losses used to learn statistics. *)
From Coq Require Import Reals Lra.
From Verif Require Import M_Base M_Num M_XReal S_Stats S_NN L_Distance L_NN M_Losses.
Open Scope R_scope.

(** *** Specification *)
Definition dist2 (a b : list R) : R := total (map (fun ab => (fst ab - snd ab) ^ 2) (combine a b)).
(** similar pairs: half the squared distance; dissimilar pairs: half the square of what is missing to the margin (the distance is regularised by 1e-9) *)
Definition pair_loss (margin : R) (a b : list R) (same : bool) : R := if same then dist2 a b / 2 else Rmax 0 (margin - sqrt (dist2 a b + / 10 ^ 9)) ^ 2 / 2.
Definition triplet_loss (margin : R) (a p n : list R) : R := Rmax 0 (dist2 a p - dist2 a n + margin).

Lemma dist2_nn a b : 0 <= dist2 a b. Proof. apply (sq_nn a b). Qed.
Lemma sqdist_dist2 a b : sqdist a b = dist2 a b.
Proof. unfold sqdist, dist2. change rtotal with total. f_equal. apply map_ext. intros [x y]. cbn [fst snd]. ring. Qed.
Lemma dist2_sym a b : dist2 a b = dist2 b a. Proof. apply (sq_sym a b). Qed.
Lemma map_combine_ext {A B C} (f g : A * B -> C) l l' : (forall a b, f (a, b) = g (a, b)) -> map f (combine l l') = map g (combine l l').
Proof. intros H. apply map_ext. intros [a b]. apply H. Qed.
Lemma total_nonneg l : (forall x, In x l -> 0 <= x) -> 0 <= total l.
Proof. induction l as [|x l IH]; intros H; [cbn; lra|]. rewrite total_cons. pose proof (H x (or_introl eq_refl)). pose proof (IH (fun y Hy => H y (or_intror Hy))). lra. Qed.
Lemma total_zero l : (forall x, In x l -> 0 <= x) -> total l = 0 <-> forall x, In x l -> x = 0.
Proof.
  induction l as [|x l IH]; intros H; [split; [intros _ x []|reflexivity]|]. rewrite total_cons. pose proof (H x (or_introl eq_refl)) as Hx. pose proof (total_nonneg l (fun y Hy => H y (or_intror Hy))) as Hl. split.
  - intros E y [<-|Hy]; [lra|]. apply (proj1 (IH (fun y Hy => H y (or_intror Hy)))); [lra | exact Hy].
  - intros E. rewrite (E x (or_introl eq_refl)). rewrite (proj2 (IH (fun y Hy => H y (or_intror Hy)))); [lra|]. intros y Hy. apply E. now right.
Qed.
Lemma pair_loss_nn m a b s : 0 <= pair_loss m a b s.
Proof. unfold pair_loss. pose proof (dist2_nn a b). destruct s; [lra|]. pose proof (pow2_ge_0 (Rmax 0 (m - sqrt (dist2 a b + / 10 ^ 9)))). lra. Qed.
Lemma triplet_loss_nn m a p n : 0 <= triplet_loss m a p n. Proof. apply Rmax_l. Qed.
Lemma eps_val : eps = / 10 ^ 9. Proof. unfold eps. f_equal. ring. Qed.

(** The rows of the losses. *)
Lemma contrastive_rows_spec margin o1 o2 same : contrastive_rows margin o1 o2 (map (fun b : bool => if b then 1 else 0) same) = map (fun p => pair_loss margin (fst (fst p)) (snd (fst p)) (snd p)) (combine (combine o1 o2) same).
Proof.
  unfold contrastive_rows. generalize (combine o1 o2). intros l. revert same. induction l as [|[a b] l IH]; intros [|s same]; cbn [combine map]; try reflexivity. f_equal; [|apply IH]. cbn [fst snd]. cbv zeta. rewrite sqdist_dist2, eps_val. unfold pair_loss, relu.
  destruct s; field.
Qed.
Definition reduced (size_average : bool) (l : list R) : xr := if size_average then match l with [] => XNaN | _ => XR (average l) end else XR (total l).
Lemma reduce_spec sa l : reduce sa l = reduced sa l. Proof. unfold reduce, reduced, average. destruct sa; reflexivity. Qed.

(** Contrastive loss: mean (or sum) over the pairs; never negative; zero exactly when similar pairs coincide and dissimilar ones are beyond the margin. *)
Theorem C61_contrastive :
  forall margin o1 o2 same sa, length o1 = length same -> length o2 = length same ->
  let l := map (fun p => pair_loss margin (fst (fst p)) (snd (fst p)) (snd p)) (combine (combine o1 o2) same) in
  contrastive margin o1 o2 (map (fun b : bool => if b then 1 else 0) same) sa = Ok (reduced sa l)
  /\ length l = length same /\ (forall x, In x l -> 0 <= x).
Proof.
  intros margin o1 o2 same sa H1 H2 l. unfold contrastive. rewrite map_length, H1, H2, Nat.eqb_refl. cbn [andb]. rewrite contrastive_rows_spec, reduce_spec. split; [reflexivity|]. split.
  - unfold l. rewrite map_length, !combine_length. lia.
  - intros x Hx. unfold l in Hx. apply in_map_iff in Hx. destruct Hx as (p & <- & _). apply pair_loss_nn.
Qed.
Print Assumptions C61_contrastive.
Lemma sqrt_le_margin m d : 0 <= d -> Rmax 0 (m - sqrt d) = 0 <-> m <= sqrt d.
Proof. intros Hd. split; intros H; [destruct (Rle_dec m (sqrt d)) as [|Hn]; [assumption|]; rewrite Rmax_right in H by lra; lra | rewrite Rmax_left; lra]. Qed.
Theorem C61_contrastive_zero :
  forall margin o1 o2 same q, length o1 = length same -> length o2 = length same -> (forall a, In a o1 \/ In a o2 -> length a = q) ->
  contrastive margin o1 o2 (map (fun b : bool => if b then 1 else 0) same) false = Ok (XR 0)
  <-> forall i a b s, nth_error o1 i = Some a -> nth_error o2 i = Some b -> nth_error same i = Some s -> if s then a = b else margin <= sqrt (dist2 a b + / 10 ^ 9).
Proof.
  intros margin o1 o2 same q H1 H2 Hq. destruct (C61_contrastive margin o1 o2 same false H1 H2) as (E & _ & Hnn). rewrite E. unfold reduced. clear E.
  assert (G : total (map (fun p => pair_loss margin (fst (fst p)) (snd (fst p)) (snd p)) (combine (combine o1 o2) same)) = 0 <-> (forall i a b s, nth_error o1 i = Some a -> nth_error o2 i = Some b -> nth_error same i = Some s -> pair_loss margin a b s = 0)).
  { rewrite (total_zero _ Hnn). clear -H1 H2. split.
    - intros H i a b s Ha Hb Hs. apply H. apply in_map_iff. exists (a, b, s). split; [reflexivity|]. clear -Ha Hb Hs. revert o2 same i Ha Hb Hs. induction o1 as [|x o1 IH]; intros [|y o2] [|z same] [|i] Ha Hb Hs; cbn in *; try discriminate; [left; congruence | right; apply (IH o2 same i); assumption].
    - intros H x Hx. apply in_map_iff in Hx. destruct Hx as ([[a b] s] & <- & Hp). cbn [fst snd].
      assert (exists i, nth_error o1 i = Some a /\ nth_error o2 i = Some b /\ nth_error same i = Some s) as (i & A1 & A2 & A3).
      { clear -Hp. revert o2 same Hp. induction o1 as [|x o1 IH]; intros [|y o2] [|z same] Hp; cbn in Hp; try contradiction. destruct Hp as [Hp|Hp]; [exists 0%nat; cbn; split; [|split]; congruence|]. destruct (IH o2 same Hp) as (i & A). now exists (S i). }
      apply (H i a b s A1 A2 A3). }
  assert (PZ : forall a b s, length a = length b -> pair_loss margin a b s = 0 <-> if s then a = b else margin <= sqrt (dist2 a b + / 10 ^ 9)).
  { intros a b s Hl. unfold pair_loss. destruct s.
    - rewrite <- (sq_zero a b Hl). change (sq a b) with (dist2 a b). split; intros; lra.
    - assert (0 <= dist2 a b + / 10 ^ 9). { pose proof (dist2_nn a b). pose proof (Rinv_0_lt_compat (10 ^ 9) ltac:(apply pow_lt; lra)). lra. }
      rewrite <- (sqrt_le_margin margin (dist2 a b + / 10 ^ 9)) by assumption. split; intros Hz; [|rewrite Hz; field]. set (r := Rmax 0 _) in *. assert (r ^ 2 = 0) by lra. destruct (Req_dec r 0) as [|Hr]; [assumption|]. exfalso. apply (pow_nonzero r 2 Hr). assumption. }
  split.
  - intros E i a b s Ha Hb Hs. assert (E' : total (map (fun p => pair_loss margin (fst (fst p)) (snd (fst p)) (snd p)) (combine (combine o1 o2) same)) = 0) by congruence. apply (PZ a b s).
    + rewrite (Hq a (or_introl (nth_error_In _ _ Ha))), (Hq b (or_intror (nth_error_In _ _ Hb))). reflexivity.
    + apply (proj1 G E' i a b s Ha Hb Hs).
  - intros H. f_equal. f_equal. apply G. intros i a b s Ha Hb Hs. apply PZ; [|apply (H i a b s Ha Hb Hs)]. rewrite (Hq a (or_introl (nth_error_In _ _ Ha))), (Hq b (or_intror (nth_error_In _ _ Hb))). reflexivity.
Qed.
Print Assumptions C61_contrastive_zero.

(** Triplet loss: mean (or sum) of the violations; zero exactly when every positive is closer to its anchor than the negative by the margin. *)
Theorem C61_triplet :
  forall margin a p n sa, length a = length p -> length a = length n ->
  let l := map (fun t => triplet_loss margin (fst (fst t)) (snd (fst t)) (snd t)) (combine (combine a p) n) in
  triplet margin a p n sa = Ok (reduced sa l) /\ length l = length a /\ (forall x, In x l -> 0 <= x)
  /\ (total l = 0 <-> forall x y z, In (x, y, z) (combine (combine a p) n) -> dist2 x y + margin <= dist2 x z).
Proof.
  intros margin a p n sa H1 H2 l. unfold triplet. rewrite <- H1, <- H2, Nat.eqb_refl. cbn [andb]. assert (E : triplet_rows margin a p n = l).
  { unfold triplet_rows, l. apply map_combine_ext. intros [x y] z. cbn [fst snd]. unfold triplet_loss, relu. rewrite !sqdist_dist2. now rewrite (dist2_sym y x), (dist2_sym z x). }
  rewrite E, reduce_spec. assert (Hnn : forall x, In x l -> 0 <= x). { intros x Hx. unfold l in Hx. apply in_map_iff in Hx. destruct Hx as (t & <- & _). apply triplet_loss_nn. }
  split; [reflexivity|]. split; [unfold l; rewrite map_length, !combine_length; lia|]. split; [exact Hnn|]. rewrite (total_zero l Hnn). unfold l. split.
  - intros H x y z Hin. assert (Z : triplet_loss margin x y z = 0). { apply H. apply in_map_iff. exists (x, y, z). split; [reflexivity | exact Hin]. }
    unfold triplet_loss in Z. destruct (Rle_dec (dist2 x y + margin) (dist2 x z)) as [|Hn]; [assumption|]. rewrite Rmax_right in Z by lra. lra.
  - intros H t Ht. apply in_map_iff in Ht. destruct Ht as ([[x y] z] & <- & Hin). cbn [fst snd]. unfold triplet_loss. specialize (H x y z Hin). rewrite Rmax_left; lra.
Qed.
Print Assumptions C61_triplet.
(** Batches of different sizes are refused; the mean over no pairs is NaN. *)
Theorem C61_refused : forall margin o1 o2 o3 t sa, (length o1 <> length o2 -> contrastive margin o1 o2 t sa = Err RuntimeError /\ triplet margin o1 o2 o3 sa = Err RuntimeError)
  /\ contrastive margin [] [] [] true = Ok XNaN /\ triplet margin [] [] [] true = Ok XNaN.
Proof. intros. split; [|split; reflexivity]. intros H. unfold contrastive, triplet. rewrite (proj2 (Nat.eqb_neq _ _) H). split; reflexivity. Qed.
Print Assumptions C61_refused.

(** *** Score matching *)
Lemma rdot_cons a b x y : rdot (a :: x) (b :: y) = a * b + rdot x y. Proof. reflexivity. Qed.
(** log of the unnormalised density with natural parameters eta: sum of eta_k t_k, plus the last statistic with coefficient 1 *)
Fixpoint logq (t : list (list R -> R)) (eta : list R) (x : list R) : R :=
  match t, eta with
  | f :: t', e :: eta' => e * f x + logq t' eta' x
  | f :: _, [] => f x
  | [], _ => 0
  end.
(** the value and derivatives of a list of functions that the network returns for coordinate j *)
Definition at_point (fs : list (list R -> R)) (x : list R) : list R := map (fun f => f x) fs.
Lemma logq_deriv (x : list R) (j : nat) : forall (t d : list (list R -> R)) eta s0, length t = S (length eta) -> length d = length t ->
  (forall k s, (k < length t)%nat -> s = s0 -> derivable_pt_lim (fun s => nth k t (fun _ => 0) (upd x j s)) s (nth k d (fun _ => 0) (upd x j s))) ->
  derivable_pt_lim (fun s => logq t eta (upd x j s)) s0 (rdot (at_point d (upd x j s0)) (eta ++ [1])).
Proof.
  induction t as [|f t IH]; intros d eta s0 Hl Hd H; [discriminate|]. destruct d as [|f' d]; [discriminate|]. destruct eta as [|e eta].
  - destruct t; [|discriminate]. destruct d; [|discriminate]. cbn [logq app at_point map]. rewrite rdot_cons. replace (f' (upd x j s0) * 1 + rdot [] []) with (f' (upd x j s0)) by (cbn; ring). apply (H 0%nat s0); [cbn; lia | reflexivity].
  - cbn [logq app at_point map]. rewrite rdot_cons. apply (derivable_pt_lim_plus (fun s => e * f (upd x j s)) (fun s => logq t eta (upd x j s))).
    + rewrite Rmult_comm. apply (derivable_pt_lim_scal (fun s => f (upd x j s))). apply (H 0%nat s0); [cbn; lia | reflexivity].
    + apply (IH d eta s0); [now injection Hl | now injection Hd|]. intros k s Hk Es. apply (H (S k) s); [cbn; lia | exact Es].
Qed.

(** what the regularised objective adds for one coordinate *)
Definition sm_term (lam : R) (score curv : R) : R := score ^ 2 / 2 + curv + lam * curv ^ 2.
Lemma fisher_value first second etas lam p : length first = length etas -> length second = length etas ->
  (forall b f s e, nth_error first b = Some f -> nth_error second b = Some s -> nth_error etas b = Some e -> length f = p /\ length s = p /\ (forall row, In row f \/ In row s -> length row = length e)) ->
  fisher first second etas lam = Ok (total (map (fun b => total (map (fun j => sm_term lam (rdot (nth j (nth b first []) []) (nth b etas [])) (rdot (nth j (nth b second []) []) (nth b etas []))) (seq 0 p))) (seq 0 (length etas)))).
Proof.
  intros H1 H2 H. assert (Bmm : forall m, length m = length etas -> (forall b f e, nth_error m b = Some f -> nth_error etas b = Some e -> length f = p /\ (forall row, In row f -> length row = length e)) ->
    bmm m etas = Ok (map (fun me => map (fun row => rdot row (snd me)) (fst me)) (combine m etas)) /\ map (fun me : list (list R) * list R => map (fun row => rdot row (snd me)) (fst me)) (combine m etas) = map (fun b => map (fun j => rdot (nth j (nth b m []) []) (nth b etas [])) (seq 0 p)) (seq 0 (length etas))).
  { clear. intros m Hm Hs. split.
    - unfold bmm. rewrite Hm, Nat.eqb_refl. cbn [andb]. assert (E : forallb (fun me => forallb (fun row => length row =? length (snd me))%nat (fst me)) (combine m etas) = true); [|now rewrite E].
      apply forallb_forall. intros [f e] Hin. apply In_nth_error in Hin. destruct Hin as (b & Hb). assert (Hfe : nth_error m b = Some f /\ nth_error etas b = Some e).
      { clear -Hb. revert etas b Hb. induction m as [|x m IH]; intros [|y l] [|b] Hb; cbn in *; try discriminate; [inversion Hb; split; reflexivity | now apply IH]. }
      apply forallb_forall. intros row Hr. apply Nat.eqb_eq. apply (proj2 (Hs b f e (proj1 Hfe) (proj2 Hfe))). exact Hr.
    - revert etas Hm Hs. induction m as [|f m IH]; intros [|e etas] Hm Hs; try discriminate; [reflexivity|]. cbn [combine map length seq fst snd nth]. f_equal.
      + destruct (Hs 0%nat f e eq_refl eq_refl) as (Hp & _). rewrite <- Hp. clear. induction f as [|row f IH]; [reflexivity|]. cbn [map length seq nth]. f_equal. rewrite <- seq_shift, map_map. exact IH.
      + rewrite <- seq_shift, map_map. cbn [nth]. apply IH; [now injection Hm|]. intros b f' e' Hf He. apply (Hs (S b) f' e' Hf He). }
  destruct (Bmm second H2) as (Es & Es').
  { intros b s e Hs He. destruct (nth_error first b) as [f|] eqn:Ef; [|apply nth_error_None in Ef; assert (b < length etas)%nat by (apply nth_error_Some; congruence); lia]. destruct (H b f s e Ef Hs He) as (_ & A & B). split; [exact A | intros row Hr; apply B; now right]. }
  destruct (Bmm first H1) as (Ef & Ef').
  { intros b f e Hf He. destruct (nth_error second b) as [s|] eqn:Es0; [|apply nth_error_None in Es0; assert (b < length etas)%nat by (apply nth_error_Some; congruence); lia]. destruct (H b f s e Hf Es0 He) as (A & _ & B). split; [exact A | intros row Hr; apply B; now left]. }
  unfold fisher. rewrite Es, Ef, Es', Ef'. clear Es Ef Es' Ef' Bmm. set (F := fun b j => rdot (nth j (nth b first []) []) (nth b etas [])). set (G := fun b j => rdot (nth j (nth b second []) []) (nth b etas [])).
  assert (L : forall (a b : list (list R)), Forall2 (fun x y => length x = length y) a b -> forallb (fun fs => length (fst fs) =? length (snd fs))%nat (combine a b) = true).
  { intros a b Hab. induction Hab as [|x y a b Hxy _ IH]; [reflexivity|]. cbn [combine forallb fst snd]. now rewrite Hxy, Nat.eqb_refl. }
  rewrite L. 2:{ generalize (seq 0 (length etas)). intros l. induction l; constructor; [now rewrite !map_length | assumption]. }
  f_equal. generalize (seq 0 (length etas)). intros l. induction l as [|b l IH]; [reflexivity|]. cbn [map concat]. 
  assert (C : forall (x y u v : list R), length x = length y -> combine (x ++ u) (y ++ v) = combine x y ++ combine u v). { clear. induction x as [|a x IHx]; intros [|c y] u v Hl; try discriminate; [reflexivity|]. cbn [app combine]. f_equal. apply IHx. now injection Hl. }
  rewrite C by now rewrite !map_length. rewrite map_app. change rtotal with total in *. rewrite total_app, total_cons, IH. f_equal. clear IH L C. clear -F G. induction (seq 0 p) as [|j js IHj]; [reflexivity|]. cbn [map combine fst snd]. rewrite !total_cons, IHj. f_equal. unfold sm_term.
  destruct (Req_EM_T lam 0) as [->|]; field.
Qed.

(** The loss of a batch is the score matching objective: sum over samples and coordinates of half the squared derivative of log q plus its second derivative (plus lam times its
    square), when the derivative tensors hold the derivatives of the statistics. *)
Theorem C61_score_matching :
  forall p lam xs etas (t : list (list R -> R)) (d1 d2 : nat -> list (list R -> R)),
  length xs = length etas -> (forall x, In x xs -> length x = p) -> (forall e, In e etas -> length t = S (length e)) -> (forall j, length (d1 j) = length t /\ length (d2 j) = length t) ->
  (forall j k x s, (j < p)%nat -> length x = p -> (k < length t)%nat -> derivable_pt_lim (fun s => nth k t (fun _ => 0) (upd x j s)) s (nth k (d1 j) (fun _ => 0) (upd x j s))) ->
  (forall j k x s, (j < p)%nat -> length x = p -> (k < length t)%nat -> derivable_pt_lim (fun s => nth k (d1 j) (fun _ => 0) (upd x j s)) s (nth k (d2 j) (fun _ => 0) (upd x j s))) ->
  exists score curv : nat -> nat -> R,
  fisher_with_c_x (map (fun x => map (fun j => at_point (d1 j) x) (seq 0 p)) xs) (map (fun x => map (fun j => at_point (d2 j) x) (seq 0 p)) xs) etas lam
    = Ok (total (map (fun b => total (map (fun j => sm_term lam (score b j) (curv b j)) (seq 0 p))) (seq 0 (length xs))))
  /\ forall b j x e, nth_error xs b = Some x -> nth_error etas b = Some e -> (j < p)%nat ->
     exists g : R -> R, (forall s, derivable_pt_lim (fun s => logq t e (upd x j s)) s (g s)) /\ g (nth j x 0) = score b j /\ derivable_pt_lim g (nth j x 0) (curv b j).
Proof.
  intros p lam xs etas t d1 d2 Hl Hp Ht Hd Hd1 Hd2.
  exists (fun b j => rdot (at_point (d1 j) (nth b xs [])) (nth b etas [] ++ [1])), (fun b j => rdot (at_point (d2 j) (nth b xs [])) (nth b etas [] ++ [1])).
  assert (Hlen : forall (d : nat -> list (list R -> R)) b f, nth_error (map (fun x => map (fun j => at_point (d j) x) (seq 0 p)) xs) b = Some f -> length f = p /\ forall row, In row f -> exists j, length row = length (d j)).
  { intros d b f Hf. rewrite nth_error_map in Hf. destruct (nth_error xs b) as [x|]; [|discriminate]. injection Hf as <-. split; [now rewrite map_length, seq_length|]. intros row Hr. apply in_map_iff in Hr. destruct Hr as (j & <- & _). exists j. unfold at_point. now rewrite map_length. }
  split.
  - unfold fisher_with_c_x. rewrite (fisher_value _ _ _ lam p).
    + rewrite !map_length. rewrite Hl. f_equal. f_equal. apply map_ext_in. intros b Hb. f_equal. apply map_ext_in. intros j Hj. apply in_seq in Hb. apply in_seq in Hj.
      assert (E1 : forall d : nat -> list (list R -> R), nth j (nth b (map (fun x => map (fun j => at_point (d j) x) (seq 0 p)) xs) []) [] = at_point (d j) (nth b xs [])).
      { intros d. set (f := fun x => map (fun j => at_point (d j) x) (seq 0 p)). rewrite (nth_indep (map f xs) [] (f [])) by (rewrite map_length; lia). rewrite map_nth. unfold f. set (h := fun j => at_point (d j) (nth b xs [])). rewrite (nth_indep (map h (seq 0 p)) [] (h 0%nat)) by (rewrite map_length, seq_length; lia). rewrite map_nth, seq_nth by lia. reflexivity. }
      rewrite (E1 d1), (E1 d2). set (f := fun e : list R => e ++ [1]). rewrite (nth_indep (map f etas) [] (f [])) by (rewrite map_length; lia). rewrite map_nth. reflexivity.
    + now rewrite !map_length.
    + now rewrite !map_length.
    + intros b f s e Hf Hs He. rewrite nth_error_map in He. destruct (nth_error etas b) as [e0|] eqn:Ee; [|discriminate]. injection He as <-. destruct (Hlen d1 b f Hf) as (A1 & A2). destruct (Hlen d2 b s Hs) as (B1 & B2). split; [exact A1|]. split; [exact B1|]. rewrite app_length, Nat.add_comm. cbn [length Nat.add]. pose proof (Ht e0 (nth_error_In _ _ Ee)) as Hte.
      intros row [Hr|Hr]; [destruct (A2 row Hr) as (j & ->); rewrite (proj1 (Hd j)) | destruct (B2 row Hr) as (j & ->); rewrite (proj2 (Hd j))]; exact Hte.
  - intros b j x e Hx He Hj. pose proof (Hp x (nth_error_In _ _ Hx)) as Hxp. pose proof (Ht e (nth_error_In _ _ He)) as Hte. rewrite (nth_error_nth _ _ [] Hx), (nth_error_nth _ _ [] He).
    assert (Eu : upd x j (nth j x 0) = x). { clear -Hj Hxp. revert j Hj. rewrite <- Hxp. clear. induction x as [|a x IH]; intros [|j] Hj; cbn in *; [reflexivity | reflexivity | reflexivity | f_equal; apply IH; lia]. }
    exists (fun s => rdot (at_point (d1 j) (upd x j s)) (e ++ [1])). split; [|split; [now rewrite Eu|]].
    + intros s. apply logq_deriv; [exact Hte | apply Hd|]. intros k s' Hk ->. apply Hd1; assumption.
    + rewrite <- Eu at 2. assert (Q : forall s, rdot (at_point (d1 j) (upd x j s)) (e ++ [1]) = logq (d1 j) e (upd x j s)).
      { intros s. assert (length (d1 j) = S (length e)) as Hd' by (rewrite (proj1 (Hd j)); exact Hte). revert Hd'. generalize (upd x j s). generalize (d1 j). clear. intros ds y. revert ds. induction e as [|e0 e IH]; intros [|f ds] Hd'; try discriminate.
        - destruct ds; [|discriminate]. cbn. ring.
        - cbn [app at_point map logq]. rewrite rdot_cons. unfold at_point in IH. rewrite IH by now injection Hd'. ring. }
      apply (dpl_ext (fun s => logq (d1 j) e (upd x j s))); [intros s; now rewrite Q|].
      apply logq_deriv; [rewrite (proj1 (Hd j)); exact Hte | rewrite (proj1 (Hd j)); apply Hd|]. intros k s' Hk ->. apply Hd2; [assumption | assumption | now rewrite <- (proj1 (Hd j))].
Qed.
Print Assumptions C61_score_matching.
(** The batch loss divides by the number of samples. *)
Theorem C61_batch : forall first second etas lam l, first <> [] -> fisher_with_c_x first second etas lam = Ok l -> batch_fisher first second etas lam = Ok (XR (l / INR (length first))).
Proof. intros first second etas lam l Hn H. unfold batch_fisher. rewrite H. destruct first; [congruence | reflexivity]. Qed.
Print Assumptions C61_batch.

Lemma pow_eq_0_of_sq x : x ^ 2 = 0 -> x = 0.
Proof. intros H. cbn in H. rewrite Rmult_1_r in H. apply Rmult_integral in H. tauto. Qed.
(** *** Sliced score matching *)
(** Noise given by finitely many projections with probabilities; uncorrelated entries of variance 1. *)
Definition expect (noise : list (R * list R)) (f : list R -> R) : R := total (map (fun wv => fst wv * f (snd wv)) noise).
Definition isotropic (p : nat) (noise : list (R * list R)) : Prop :=
  (forall w v, In (w, v) noise -> length v = p) /\ expect noise (fun _ => 1) = 1
  /\ forall i j, (i < p)%nat -> (j < p)%nat -> expect noise (fun v => nth i v 0 * nth j v 0) = if (i =? j)%nat then 1 else 0.
Lemma rdot_seq : forall a b p, length a = p -> length b = p -> rdot a b = total (map (fun i => nth i a 0 * nth i b 0) (seq 0 p)).
Proof.
  induction a as [|x a IH]; intros [|y b] [|p] Ha Hb; try discriminate; [reflexivity|]. rewrite rdot_cons. cbn [seq map nth]. rewrite total_cons. rewrite <- seq_shift, map_map. cbn [nth]. rewrite (IH b p) by (cbn in *; lia). reflexivity.
Qed.
Lemma expect_total {A} noise (f : A -> list R -> R) (l : list A) : expect noise (fun v => total (map (fun a => f a v) l)) = total (map (fun a => expect noise (f a)) l).
Proof.
  unfold expect. rewrite (total_swap (fun a wv => fst wv * f a (snd wv)) l noise). f_equal. apply map_ext. intros [w v]. cbn [fst snd]. symmetry. apply (total_scale (fun a => f a v) w l).
Qed.
Lemma expect_scale noise c f : expect noise (fun v => c * f v) = c * expect noise f.
Proof. unfold expect. rewrite <- (total_scale (fun wv => fst wv * f (snd wv)) c noise). f_equal. apply map_ext. intros [w v]. cbn [fst snd]. ring. Qed.
Lemma expect_plus noise f g : expect noise (fun v => f v + g v) = expect noise f + expect noise g.
Proof. unfold expect. rewrite <- total_plus. f_equal. apply map_ext. intros [w v]. cbn [fst snd]. ring. Qed.
Lemma expect_ext noise f g : (forall w v, In (w, v) noise -> f v = g v) -> expect noise f = expect noise g.
Proof. intros H. unfold expect. f_equal. apply map_ext_in. intros [w v] Hin. cbn [fst snd]. now rewrite (H w v Hin). Qed.
Lemma total_delta c p i : (i < p)%nat -> total (map (fun j => c j * (if (i =? j)%nat then 1 else 0)) (seq 0 p)) = c i.
Proof.
  assert (G : forall n a, total (map (fun j => c j * (if (i =? j)%nat then 1 else 0)) (seq a n)) = if ((a <=? i) && (i <? a + n))%nat then c i else 0).
  { induction n as [|n IH]; intros a; cbn [seq map].
    - replace ((a <=? i) && (i <? a + 0))%nat with false; [reflexivity|]. symmetry. apply andb_false_iff. destruct (Nat.leb_spec a i); [right; apply Nat.ltb_ge; lia | now left].
    - rewrite total_cons, IH. destruct (Nat.eqb_spec i a) as [->|Hne].
      + replace ((S a <=? a) && _)%nat with false by (symmetry; apply andb_false_iff; left; apply Nat.leb_gt; lia). replace ((a <=? a) && (a <? a + S n))%nat with true by (symmetry; apply andb_true_iff; split; [apply Nat.leb_le | apply Nat.ltb_lt]; lia). ring.
      + replace ((a <=? i) && (i <? a + S n))%nat with ((S a <=? i) && (i <? S a + n))%nat; [ring|]. f_equal; [|f_equal; lia]. destruct (Nat.leb_spec (S a) i), (Nat.leb_spec a i); try reflexivity; lia. }
  intros Hi. rewrite G. replace ((0 <=? i) && (i <? 0 + p))%nat with true; [reflexivity|]. symmetry. apply andb_true_iff. split; [apply Nat.leb_le | apply Nat.ltb_lt]; lia.
Qed.
Lemma quad_expect noise p (m : nat -> nat -> R) : isotropic p noise -> expect noise (fun v => total (map (fun i => total (map (fun j => m i j * (nth i v 0 * nth j v 0)) (seq 0 p))) (seq 0 p))) = total (map (fun i => m i i) (seq 0 p)).
Proof.
  intros (_ & _ & H). rewrite (expect_total noise (fun i v => total (map (fun j => m i j * (nth i v 0 * nth j v 0)) (seq 0 p))) (seq 0 p)). f_equal. apply map_ext_in. intros i Hi. apply in_seq in Hi.
  rewrite (expect_total noise (fun j v => m i j * (nth i v 0 * nth j v 0)) (seq 0 p)). rewrite <- (total_delta (m i) p i) by lia. f_equal. apply map_ext_in. intros j Hj. apply in_seq in Hj. rewrite (expect_scale noise (m i j) (fun v => nth i v 0 * nth j v 0)). rewrite H by lia. reflexivity.
Qed.
Lemma total_mul_total {A B} (f : A -> R) (g : B -> R) l l' : total (map f l) * total (map g l') = total (map (fun a => total (map (fun b => f a * g b) l')) l).
Proof. induction l as [|a l IH]; [cbn; ring|]. cbn [map]. rewrite !total_cons, <- IH. rewrite (total_scale g (f a) l'). ring. Qed.

(** On average over the projections the sliced loss of a sample is the full objective: half the squared gradient plus the trace of the Hessian. *)
Theorem C61_sliced_unbiased :
  forall p noise g h vr, isotropic p noise -> length g = p -> length h = p -> (forall row, In row h -> length row = p) ->
  expect noise (sliced_row vr g h) = total (map (fun i => nth i g 0 ^ 2 / 2 + nth i (nth i h []) 0) (seq 0 p)).
Proof.
  intros p noise g h vr Hiso Hg Hh Hrow. pose proof Hiso as (Hlen & H1 & _). unfold sliced_row. rewrite expect_plus.
  rewrite (total_plus (fun i => nth i g 0 ^ 2 / 2) (fun i => nth i (nth i h []) 0) (seq 0 p)). f_equal.
  - assert (E : total (map (fun i => nth i g 0 ^ 2 / 2) (seq 0 p)) = / 2 * rdot g g).
    { rewrite (rdot_seq g g p Hg Hg). rewrite <- (total_scale (fun i => nth i g 0 * nth i g 0) (/ 2)). f_equal. apply map_ext. intros i. field. }
    rewrite E. destruct vr.
    + rewrite sqrt_sqrt by (change (rdot g g) with (dotl g g); apply dotl_self). rewrite (expect_ext noise _ (fun _ => rdot g g * / 2 * 1)) by (intros; ring). rewrite (expect_scale noise (rdot g g * / 2) (fun _ => 1)), H1. ring.
    + rewrite (expect_ext noise _ (fun v => / 2 * total (map (fun i => total (map (fun j => (nth i g 0 * nth j g 0) * (nth i v 0 * nth j v 0)) (seq 0 p))) (seq 0 p)))).
      * rewrite expect_scale, (quad_expect noise p (fun i j => nth i g 0 * nth j g 0) Hiso). rewrite (rdot_seq g g p Hg Hg). reflexivity.
      * intros w v Hin. rewrite (rdot_seq g v p Hg (Hlen w v Hin)). rewrite total_mul_total. rewrite Rmult_comm. f_equal. f_equal. apply map_ext. intros i. f_equal. apply map_ext. intros j. ring.
  - rewrite (expect_ext noise _ (fun v => total (map (fun i => total (map (fun j => nth j (nth i h []) 0 * (nth i v 0 * nth j v 0)) (seq 0 p))) (seq 0 p)))).
    + apply (quad_expect noise p (fun i j => nth j (nth i h []) 0) Hiso).
    + intros w v Hin. pose proof (Hlen w v Hin) as Hv. rewrite (rdot_seq v _ p Hv) by now rewrite map_length. f_equal. apply map_ext_in. intros i Hi. apply in_seq in Hi.
      set (f := fun row => rdot row v). rewrite (nth_indep (map f h) 0 (f [])) by (rewrite map_length; lia). rewrite map_nth. unfold f. rewrite (rdot_seq (nth i h []) v p); [|apply Hrow, nth_In; lia | exact Hv]. rewrite <- (total_scale (fun j => nth j (nth i h []) 0 * nth j v 0) (nth i v 0)). f_equal. apply map_ext. intros j. ring.
Qed.
Print Assumptions C61_sliced_unbiased.
(** A batch: every sample has its own projection.  The loss is the mean over the samples, and on average over independent projections it is the mean of the full
    objectives; an empty batch gives no number. *)
Fixpoint expect_all (noise : list (R * list R)) (n : nat) (f : list (list R) -> R) : R :=
  match n with 0%nat => f [] | S n' => expect noise (fun v => expect_all noise n' (fun vs => f (v :: vs))) end.
Definition objective (p : nat) (g : list R) (h : list (list R)) : R := total (map (fun i => nth i g 0 ^ 2 / 2 + nth i (nth i h []) 0) (seq 0 p)).
Lemma expect_all_ext noise n : forall f g, (forall vs, length vs = n -> f vs = g vs) -> expect_all noise n f = expect_all noise n g.
Proof.
  induction n as [|n IH]; intros f g H; [apply H; reflexivity|]. cbn [expect_all]. apply expect_ext. intros w v _. apply IH. intros vs Hv. apply H. cbn. now rewrite Hv.
Qed.
Lemma expect_all_plus noise n : expect noise (fun _ => 1) = 1 -> forall c f, expect_all noise n (fun vs => c + f vs) = c + expect_all noise n f.
Proof.
  intros H1. induction n as [|n IH]; intros c f; [reflexivity|]. cbn [expect_all]. rewrite (expect_ext noise _ (fun v => c * 1 + expect_all noise n (fun vs => f (v :: vs)))) by (intros; rewrite IH; ring).
  rewrite expect_plus, (expect_scale noise c (fun _ => 1)), H1. ring.
Qed.
Lemma expect_all_scale noise n c : forall f, expect_all noise n (fun vs => c * f vs) = c * expect_all noise n f.
Proof. induction n as [|n IH]; intros f; [reflexivity|]. cbn [expect_all]. rewrite <- expect_scale. apply expect_ext. intros w v _. apply IH. Qed.
Theorem C61_sliced_batch :
  forall p noise grads hesss vr, isotropic p noise -> grads <> [] -> length hesss = length grads ->
  (forall g, In g grads -> length g = p) -> (forall h, In h hesss -> length h = p /\ forall row, In row h -> length row = p) ->
  exists loss, (forall vs, length vs = length grads -> sliced vr grads hesss vs = XR (loss vs))
    /\ (forall vs, length vs = length grads -> loss vs = average (map (fun i => sliced_row vr (nth i grads []) (nth i hesss []) (nth i vs [])) (seq 0 (length grads))))
    /\ expect_all noise (length grads) loss = average (map (fun gh => objective p (fst gh) (snd gh)) (combine grads hesss)).
Proof.
  intros p noise grads hesss vr Hiso Hne Hl Hg Hh. pose proof Hiso as (_ & H1 & _).
  set (rows := fun vs => map (fun q => sliced_row vr (fst (fst q)) (snd (fst q)) (snd q)) (combine (combine grads hesss) vs)).
  assert (Hrl : forall vs, length vs = length grads -> length (rows vs) = length grads) by (intros vs Hv; unfold rows; rewrite map_length, !combine_length, Hl, Hv; lia).
  exists (fun vs => total (rows vs) / INR (length grads)). split; [|split].
  - intros vs Hv. unfold sliced. fold (rows vs). rewrite reduce_spec. unfold reduced, average. rewrite (Hrl vs Hv). destruct (rows vs) eqn:E; [|reflexivity].
    exfalso. pose proof (Hrl vs Hv) as K. rewrite E in K. destruct grads; [congruence | discriminate K].
  - intros vs Hv. unfold average. rewrite map_length, seq_length. f_equal. f_equal. unfold rows. clear Hne Hrl rows Hg Hh. revert hesss vs Hl Hv.
    induction grads as [|g grads IH]; intros [|h hesss] [|v vs] Hl Hv; try discriminate; [reflexivity|]. cbn [combine map length seq nth fst snd]. f_equal.
    rewrite <- seq_shift, map_map. cbn [nth]. apply IH; cbn in *; lia.
  - unfold average. rewrite map_length, combine_length, Hl, Nat.min_id.
    rewrite (expect_all_ext noise (length grads) _ (fun vs => / INR (length grads) * total (rows vs))) by (intros; unfold Rdiv; ring). rewrite expect_all_scale. unfold Rdiv. rewrite Rmult_comm. f_equal.
    unfold rows. clear Hne Hrl rows. revert hesss Hl Hh. induction grads as [|g grads IH]; intros [|h hesss] Hl Hh; try discriminate; [reflexivity|]. cbn [combine map length expect_all fst snd].
    rewrite (expect_ext noise _ (fun v => sliced_row vr g h v + expect_all noise (length grads) (fun vs => total (map (fun q => sliced_row vr (fst (fst q)) (snd (fst q)) (snd q)) (combine (combine grads hesss) vs))) * 1)).
    + rewrite expect_plus, expect_scale, H1, Rmult_1_r, total_cons. f_equal.
      * unfold objective. apply (C61_sliced_unbiased p noise g h vr Hiso); [apply Hg; left; reflexivity | apply Hh; left; reflexivity | apply Hh; left; reflexivity].
      * apply IH; [intros x Hx; apply Hg; right; exact Hx | cbn in Hl; lia | intros x Hx; apply Hh; right; exact Hx].
    + intros w v _. rewrite Rmult_1_r, <- expect_all_plus by exact H1. apply expect_all_ext. intros vs _. cbn [combine map fst snd]. apply total_cons.
Qed.
Print Assumptions C61_sliced_batch.
(** Random signs are such a noise, and they are what the default noise type produces from non-zero normal numbers. *)
Fixpoint signs (p : nat) : list (list R) := match p with O => [[]] | S p' => map (cons 1) (signs p') ++ map (cons (-1)) (signs p') end.
Definition uniform_signs (p : nat) : list (R * list R) := map (fun v => (/ 2 ^ p, v)) (signs p).
Lemma signs_len p v : In v (signs p) -> length v = p.
Proof. revert v. induction p as [|p IH]; intros v H; cbn in H; [destruct H as [<-|[]]; reflexivity|]. apply in_app_iff in H. destruct H as [H|H]; apply in_map_iff in H; destruct H as (u & <- & Hu); cbn; f_equal; now apply IH. Qed.
Lemma signs_total p : total (map (fun _ => 1) (signs p)) = 2 ^ p.
Proof. induction p as [|p IH]; [cbn; ring|]. cbn [signs]. rewrite map_app, !map_map, total_app, IH. cbn [pow]. ring. Qed.
Lemma signs_first p : forall i, (i < p)%nat -> total (map (fun v => nth i v 0) (signs p)) = 0.
Proof.
  induction p as [|p IH]; intros i Hi; [lia|]. cbn [signs]. rewrite map_app, !map_map, total_app. destruct i as [|i]; cbn [nth].
  - rewrite signs_total. rewrite (map_ext (fun _ : list R => -1) (fun _ => -1 * 1)) by (intros; ring). rewrite (total_scale (fun _ => 1) (-1)), signs_total. ring.
  - rewrite IH by lia. ring.
Qed.
Lemma signs_second p : forall i j, (i < p)%nat -> (j < p)%nat -> total (map (fun v => nth i v 0 * nth j v 0) (signs p)) = if (i =? j)%nat then 2 ^ p else 0.
Proof.
  induction p as [|p IH]; intros i j Hi Hj; [lia|]. cbn [signs]. rewrite map_app, !map_map, total_app. destruct i as [|i], j as [|j]; cbn [nth Nat.eqb].
  - rewrite (map_ext (fun _ : list R => 1 * 1) (fun _ => 1)) by (intros; ring). rewrite (map_ext (fun _ : list R => -1 * -1) (fun _ => 1)) by (intros; ring). rewrite signs_total. cbn [pow]. ring.
  - rewrite (total_scale (fun v => nth j v 0) 1), (total_scale (fun v => nth j v 0) (-1)), signs_first by lia. ring.
  - rewrite (map_ext (fun v : list R => nth i v 0 * 1) (fun v => 1 * nth i v 0)) by (intros; ring). rewrite (map_ext (fun v : list R => nth i v 0 * -1) (fun v => -1 * nth i v 0)) by (intros; ring).
    rewrite (total_scale (fun v => nth i v 0) 1), (total_scale (fun v => nth i v 0) (-1)), signs_first by lia. ring.
  - rewrite IH by lia. destruct (i =? j)%nat; cbn [pow]; ring.
Qed.
Theorem C61_rademacher :
  forall p, isotropic p (uniform_signs p)
  /\ forall normals vr, (forall v, In v normals -> length v = p /\ forall x, In x v -> x <> 0) -> exists vs, projections Rademacher vr normals = Ok vs /\ length vs = length normals /\ forall v, In v vs -> In v (signs p).
Proof.
  intros p. split.
  - assert (Ex : forall f, expect (uniform_signs p) f = / 2 ^ p * total (map f (signs p))). { intros f. unfold expect, uniform_signs. rewrite map_map. cbn [fst snd]. apply (total_scale f (/ 2 ^ p)). }
    assert (Hp : 2 ^ p <> 0) by (apply pow_nonzero; lra).
    split; [|split].
    + intros w v Hin. unfold uniform_signs in Hin. apply in_map_iff in Hin. destruct Hin as (u & E & Hu). injection E as <- <-. now apply signs_len.
    + rewrite Ex, signs_total. field. exact Hp.
    + intros i j Hi Hj. rewrite Ex, signs_second by assumption. destruct (i =? j)%nat; field; exact Hp.
  - intros normals vr H. exists (map (map rsgn) normals). split; [reflexivity|]. split; [apply map_length|]. intros v Hv. apply in_map_iff in Hv. destruct Hv as (u & <- & Hu). destruct (H u Hu) as (Hl & Hz). clear -Hl Hz. revert u Hl Hz. induction p as [|p IH]; intros [|x u] Hl Hz; try discriminate; [now left|].
    cbn [map signs]. apply in_app_iff. assert (Hin : In (map rsgn u) (signs p)) by (apply IH; [now injection Hl | intros y Hy; apply Hz; now right]). pose proof (Hz x (or_introl eq_refl)) as Hx. unfold rsgn at 1 3. destruct (Rlt_dec 0 x); [left; now apply in_map|]. destruct (Rlt_dec x 0); [right; now apply in_map | exfalso; lra].
Qed.
Print Assumptions C61_rademacher.
(** Noise on the sphere: each projection is the drawn vector stretched by a positive number to squared length p (as for the other two types on average); Gaussian noise is used as drawn. *)
Theorem C61_sphere :
  forall normals, (forall v, In v normals -> exists x, In x v /\ x <> 0) ->
  projections Gaussian true normals = Ok normals /\ projections Gaussian false normals = Ok normals
  /\ exists vs, projections Sphere false normals = Ok vs
  /\ Forall2 (fun v u => total (map (fun x => x ^ 2) u) = INR (length v) /\ exists c, 0 < c /\ u = map (fun x => c * x) v) normals vs.
Proof.
  intros normals H. split; [reflexivity|]. split; [reflexivity|]. eexists. split; [reflexivity|]. induction normals as [|v normals IH]; [constructor|]. cbn [map]. constructor; [|apply IH; intros; apply H; now right].
  destruct (H v (or_introl eq_refl)) as (x0 & Hin & Hx0). set (q := rdot v v). assert (Eq : q = total (map (fun x => x ^ 2) v)).
  { unfold q. clear. induction v as [|x v IH]; [reflexivity|]. rewrite rdot_cons, IH. cbn [map]. rewrite total_cons. ring. }
  assert (Hq : 0 < q).
  { assert (N : 0 <= total (map (fun x => x ^ 2) v)) by (apply total_nonneg; intros y Hy; apply in_map_iff in Hy; destruct Hy as (z & <- & _); apply pow2_ge_0).
    rewrite Eq. destruct N as [N|N]; [exact N|]. exfalso. symmetry in N. rewrite total_zero in N by (intros y Hy; apply in_map_iff in Hy; destruct Hy as (z & <- & _); apply pow2_ge_0).
    specialize (N (x0 ^ 2) (in_map (fun x => x ^ 2) v x0 Hin)). apply Hx0. now apply (pow_eq_0_of_sq x0). }
  set (c := / sqrt q * sqrt (INR (length v))). assert (Hs : 0 < sqrt q) by (now apply sqrt_lt_R0).
  assert (HL : 0 < INR (length v)) by (apply lt_0_INR; destruct v; [destruct Hin | cbn; lia]).
  assert (E : map (fun x => x / sqrt q * sqrt (INR (length v))) v = map (fun x => c * x) v) by (apply map_ext; intros x; unfold c; field; lra). rewrite E. split.
  - rewrite map_map. rewrite (map_ext (fun x => (c * x) ^ 2) (fun x => c ^ 2 * x ^ 2)) by (intros; ring). rewrite (total_scale (fun x => x ^ 2) (c ^ 2)). rewrite <- Eq. unfold c.
    replace ((/ sqrt q * sqrt (INR (length v))) ^ 2) with (/ (sqrt q * sqrt q) * (sqrt (INR (length v)) * sqrt (INR (length v)))) by (field; lra). rewrite !sqrt_sqrt by lra. field. lra.
  - exists c. split; [|reflexivity]. unfold c. apply Rmult_lt_0_compat; [now apply Rinv_0_lt_compat | now apply sqrt_lt_R0].
Qed.
Print Assumptions C61_sphere.
(** Noise types that are refused. *)
Theorem C61_noise_refused : forall vr normals, projections OtherNoise vr normals = Err RuntimeError /\ projections Sphere true normals = Err RuntimeError.
Proof. intros. split; reflexivity. Qed.
Print Assumptions C61_noise_refused.

(** One statistic t(x) = x^2 and c(x) = x in one dimension, eta = 3 at x = 2: log q = 3 x^2 + x. *)
Definition toy_t : list (list R -> R) := [fun x => nth 0 x 0 * nth 0 x 0; fun x => nth 0 x 0].
Definition toy_d1 (j : nat) : list (list R -> R) := [fun x => 2 * nth 0 x 0; fun _ => 1].
Definition toy_d2 (j : nat) : list (list R -> R) := [fun _ => 2; fun _ => 0].
Example C61_case_score : exists score curv : nat -> nat -> R,
  fisher_with_c_x [[[2 * 2; 1]]] [[[2; 0]]] [[3]] 0 = Ok (total [total [sm_term 0 (score 0%nat 0%nat) (curv 0%nat 0%nat)]])
  /\ (exists g : R -> R, (forall s, derivable_pt_lim (fun s => logq toy_t [3] (upd [2] 0 s)) s (g s)) /\ g 2 = score 0%nat 0%nat /\ derivable_pt_lim g 2 (curv 0%nat 0%nat)).
Proof.
  destruct (C61_score_matching 1 0 [[2]] [[3]] toy_t toy_d1 toy_d2) as (sc & cv & E & H).
  - reflexivity.
  - intros x [<-|[]]. reflexivity.
  - intros e [<-|[]]. reflexivity.
  - intros j. split; reflexivity.
  - intros j k x s Hj Hx Hk. destruct x as [|x0 [|]]; try discriminate. destruct j as [|j]; [|lia]. destruct k as [|[|k]]; [| |cbn in Hk; lia]; cbn [nth toy_t toy_d1 upd].
    + replace (2 * s) with (1 * s + s * 1) by ring. apply (derivable_pt_lim_mult (fun s => s) (fun s => s)); apply derivable_pt_lim_id.
    + apply derivable_pt_lim_id.
  - intros j k x s Hj Hx Hk. destruct x as [|x0 [|]]; try discriminate. destruct j as [|j]; [|lia]. destruct k as [|[|k]]; [| |cbn in Hk; lia]; cbn [nth toy_d2 toy_d1 upd].
    + assert (D : derivable_pt_lim (fun s => 2 * s) s (2 * 1)) by (apply (derivable_pt_lim_scal (fun s => s)), derivable_pt_lim_id). rewrite Rmult_1_r in D. exact D.
    + apply derivable_pt_lim_const.
  - exists sc, cv. split; [exact E|]. exact (H 0%nat 0%nat [2] [3] eq_refl eq_refl ltac:(lia)).
Qed.
Example C61_case : fisher_with_c_x [[[4; 1]]] [[[2; 0]]] [[3]] 0 = Ok ((4 * 3 + (1 * 1 + 0)) ^ 2 / 2 + (2 * 3 + (0 * 1 + 0)))
  /\ contrastive 1 [[0]; [0]] [[3]; [2]] [1; 0] false = Ok (XR (9 / 2))
  /\ isotropic 1 (uniform_signs 1).
Proof.
  split; [unfold fisher_with_c_x, fisher, bmm; cbn; destruct (Req_EM_T 0 0); [f_equal; unfold rdot; cbn; field | congruence]|]. split; [|apply C61_rademacher].
  pose proof (proj1 (C61_contrastive 1 [[0]; [0]] [[3]; [2]] [true; false] false eq_refl eq_refl)) as E. cbn [map] in E. rewrite E. unfold reduced. f_equal. f_equal. cbn [combine map fst snd]. unfold pair_loss, dist2. cbn [combine map fst snd].
  rewrite Rmax_left; [cbn; field|]. assert (sqrt 1 <= sqrt (total [(0 - 2) ^ 2] + / 10 ^ 9)); [|rewrite sqrt_1 in *; lra]. apply sqrt_le_1_alt. pose proof (Rinv_0_lt_compat (10 ^ 9) ltac:(apply pow_lt; lra)). unfold total. cbn [fold_right]. lra.
Qed.
(** a batch of two samples with two entries, and random signs *)
Example C61_batch_case : isotropic 2 (uniform_signs 2) /\ (forall g, In g [[1; 2]; [0; 3]] -> length g = 2%nat)
  /\ (forall h, In h [[[1; 0]; [0; 1]]; [[2; 1]; [1; 0]]] -> length h = 2%nat /\ forall row : list R, In row h -> length row = 2%nat).
Proof.
  split; [apply C61_rademacher|]. split; [intros g [<- | [<- | []]]; reflexivity|].
  intros h [<- | [<- | []]]; (split; [reflexivity | intros row [<- | [<- | []]]; reflexivity]).
Qed.
