(** C73: simulations and the random number generator with and without nested execution. *)
From Coq Require Import Lia.
From Verif Require Import M_Base M_Nested S_Nested.

Section Sim.
Variables Model Rng Data : Type.
Variable compatible : Model -> bool.
Variable forward : Model -> nat -> Rng -> Rng * Data.
Notation simulate := (simulate compatible forward).

(** C73 (without controller): every model continues with the generator the model before it left; the caller gets the last one. *)
Theorem C73_plain size models n g g' ys : size <= 1 ->
  (simulate size models n g = (g', Some ys) <-> (forall m, In m models -> compatible m = true) /\ Threads forward n models g g' ys).
Proof.
  intros Hs. assert (E : (1 <? size) = false) by (apply Nat.ltb_ge; exact Hs). revert g ys. induction models as [|m ms IH]; intros g ys; cbn [M_Nested.simulate].
  - split; [intros H; injection H as <- <-; split; [intros m []|constructor]|]. intros [_ H]. inversion H; subst. reflexivity.
  - rewrite E. destruct (compatible m) eqn:C.
    + destruct (forward m n g) as [g1 y] eqn:F. split.
      * destruct (simulate size ms n g1) as [g2 [ys2|]] eqn:S2; intros H; [|discriminate]. injection H as <- <-. destruct (proj1 (IH g1 ys2) S2) as [H1 H2].
        split; [intros x [<-|Hx]; [exact C|apply H1; exact Hx]|econstructor; eassumption].
      * intros [H1 H2]. inversion H2 as [|m' ms' g0 g1' g2' y' ys' F' T']; subst. rewrite F in F'. injection F' as <- <-.
        rewrite (proj2 (IH g1 ys') (conj (fun x Hx => H1 x (or_intror Hx)) T')). reflexivity.
    + split; [discriminate|]. intros [H _]. specialize (H m (or_introl eq_refl)). congruence.
Qed.
(** C73 (with a controller): all models start from the same generator, which the caller keeps unchanged. *)
Theorem C73_nested size models n g : 2 <= size ->
  simulate size models n g = (g, if forallb compatible models then Some (map (fun m => snd (forward m n g)) models) else None).
Proof.
  intros Hs. assert (E : (1 <? size) = true) by (apply Nat.ltb_lt; lia). induction models as [|m ms IH]; cbn [M_Nested.simulate forallb map]; [reflexivity|]. rewrite E. destruct (compatible m); [|reflexivity]. rewrite IH. cbn [andb].
  destruct (forallb compatible ms); reflexivity.
Qed.
(** C73 (repeated numbers): two simulations in succession use the same random numbers, and so do two equal models. *)
Theorem C73_reuse_refuted size models n g : 2 <= size ->
  simulate size models n (fst (simulate size models n g)) = simulate size models n g /\
  forall i j m ys, snd (simulate size models n g) = Some ys -> nth_error models i = Some m -> nth_error models j = Some m -> nth_error ys i = nth_error ys j.
Proof.
  intros Hs. rewrite (C73_nested size models n g Hs). split; [cbn [fst]; apply C73_nested; exact Hs|]. intros i j m ys. cbn [snd]. destruct (forallb compatible models); [|discriminate]. intros H Hi Hj. injection H as <-.
  rewrite !nth_error_map, Hi, Hj. reflexivity.
Qed.

Variable close : option (list Data) -> bool.
Notation hit_loop := (hit_loop compatible forward close).
(** the generator before the k-th simulation from the same parameter *)
Definition before (size : nat) (models : list Model) (n : nat) (g : Rng) (k : nat) : Rng := Nat.iter k (fun x => fst (simulate size models n x)) g.
Definition hit (size : nat) (models : list Model) (n : nat) (g : Rng) (k : nat) : bool := close (snd (simulate size models n (before size models n g k))).
Lemma before_S size models n g k : before size models n g (S k) = before size models n (fst (simulate size models n g)) k.
Proof. unfold before. induction k as [|k IH]; [reflexivity|]. cbn [Nat.iter nat_rect] in *. rewrite IH. reflexivity. Qed.
(** C73 (r-hit kernel): the loop ends with the first [hits] hits among the simulations, at the last of them. *)
Theorem C73_hits fuel size models n hits g g' acc k : hit_loop fuel size models n hits g [] 0 = Ok (g', acc, k) ->
  acc = filter (hit size models n g) (seq 0 k) /\ length acc = hits /\ g' = before size models n g k /\ (0 < k -> hit size models n g (k - 1) = true).
Proof.
  assert (X : forall fuel k0 g1 acc0, g1 = before size models n g k0 -> acc0 = filter (hit size models n g) (seq 0 k0) -> length acc0 <= hits -> (0 < k0 -> length acc0 = hits -> hit size models n g (k0 - 1) = true) ->
    hit_loop fuel size models n hits g1 acc0 k0 = Ok (g', acc, k) -> acc = filter (hit size models n g) (seq 0 k) /\ length acc = hits /\ g' = before size models n g k /\ (0 < k -> hit size models n g (k - 1) = true)).
  { clear fuel. induction fuel as [|fuel IH]; intros k0 g1 acc0 E1 E2 E3 E4 H; [discriminate|]. cbn [M_Nested.hit_loop] in H. destruct (Nat.ltb_spec (length acc0) hits) as [L|G].
    - destruct (simulate size models n g1) as [g2 y] eqn:S. assert (Hh : close y = hit size models n g k0) by (unfold hit; rewrite <- E1, S; reflexivity).
      replace (k0 + 1) with (Datatypes.S k0) in H by lia. assert (EF : filter (hit size models n g) (seq 0 (Datatypes.S k0)) = if close y then acc0 ++ [k0] else acc0).
      { rewrite seq_S, filter_app, <- E2. cbn [filter Nat.add]. rewrite <- Hh. destruct (close y); [reflexivity|apply app_nil_r]. }
      apply (IH (Datatypes.S k0) _ _) in H; [exact H| | | |].
      + unfold before in *. cbn [Nat.iter nat_rect]. change (g2 = fst (simulate size models n (Nat.iter k0 (fun x => fst (simulate size models n x)) g))). rewrite <- E1, S. reflexivity.
      + symmetry. exact EF.
      + destruct (close y); [rewrite app_length; cbn; lia|lia].
      + intros _. cbn [Nat.sub]. rewrite Nat.sub_0_r, <- Hh. destruct (close y); [reflexivity|lia].
    - injection H as <- <- <-. split; [exact E2|]. split; [lia|]. split; [exact E1|]. intros Hk. apply E4; [exact Hk|lia]. }
  intros H. apply (X fuel 0 g []); [reflexivity|reflexivity|cbn; lia|lia|exact H].
Qed.
(** C73 (r-hit kernel with a controller): all simulations are the same, so all are hits or none is and the loop never ends. *)
Theorem C73_hits_refuted size models n hits g : 2 <= size -> 0 < hits ->
  (close (snd (simulate size models n g)) = true -> forall fuel, hits < fuel -> hit_loop fuel size models n hits g [] 0 = Ok (g, seq 0 hits, hits)) /\
  (close (snd (simulate size models n g)) = false -> forall fuel, hit_loop fuel size models n hits g [] 0 = Err OutOfFuel).
Proof.
  intros Hs Hh. assert (E : fst (simulate size models n g) = g) by (rewrite C73_nested by exact Hs; reflexivity). split; intros HC.
  - assert (X : forall fuel k, k <= hits -> hits < fuel + k -> hit_loop fuel size models n hits g (seq 0 k) k = Ok (g, seq 0 hits, hits)).
    { induction fuel as [|fuel IH]; intros k H1 H2; [lia|]. cbn [M_Nested.hit_loop]. rewrite seq_length. destruct (Nat.ltb_spec k hits) as [L|G]; [|replace k with hits by lia; reflexivity].
      destruct (simulate size models n g) as [g2 y] eqn:S. cbn [fst snd] in E, HC. subst g2. rewrite HC. replace (k + 1) with (Datatypes.S k) by lia. replace (seq 0 k ++ [k]) with (seq 0 (Datatypes.S k)) by (rewrite seq_S; reflexivity). apply IH; lia. }
    intros fuel Hf. apply (X fuel 0); lia.
  - enough (X : forall fuel k, hit_loop fuel size models n hits g [] k = Err OutOfFuel) by (intros fuel; apply X). induction fuel as [|fuel IH]; intros k; [reflexivity|]. cbn [M_Nested.hit_loop length]. destruct (Nat.ltb_spec 0 hits) as [L|G]; [|lia]. destruct (simulate size models n g) as [g2 y] eqn:S. cbn [fst snd] in E, HC. subst g2. rewrite HC. apply IH.
Qed.
End Sim.
Print Assumptions C73_plain.
Print Assumptions C73_nested.
Print Assumptions C73_reuse_refuted.
Print Assumptions C73_hits.
Print Assumptions C73_hits_refuted.

(** * Cases: the generator counts, the data are its value; close means a multiple of 3 *)
Definition count_forward (m n g : nat) : nat * nat := (g + n, g + m).
Definition count_close (y : option (list nat)) : bool := match y with Some (d :: _) => d mod 3 =? 0 | _ => false end.
Example plain_case : simulate (fun _ => true) count_forward 1 [10; 10] 1 5 = (7, Some [15; 16]).
Proof. reflexivity. Qed.
Example nested_case : simulate (fun _ => true) count_forward 3 [10; 10] 1 5 = (5, Some [15; 15]).
Proof. reflexivity. Qed.
(** hits at simulations 1, 4, 7 without a controller; with one, three equal hits or none *)
Example hits_plain : hit_loop (fun _ => true) count_forward count_close 20 1 [10] 1 3 4 [] 0 = Ok (12, [1; 4; 7], 8).
Proof. reflexivity. Qed.
Example hits_nested : hit_loop (fun _ => true) count_forward count_close 20 2 [10] 1 3 5 [] 0 = Ok (5, [0; 1; 2], 3).
Proof. reflexivity. Qed.
Example hits_never : hit_loop (fun _ => true) count_forward count_close 20 2 [10] 1 3 4 [] 0 = Err OutOfFuel.
Proof. reflexivity. Qed.
