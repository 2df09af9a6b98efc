(** Getters after a history, same-iteration weights, witnesses. *)
From Verif Require Import M_Base M_Journal S_Journal L_Journal L_Journal2.

Section G.
Variables (Name E S C D : Type) (neqb : Name -> Name -> bool).
Hypothesis neqb_spec : forall a b, reflect (a = b) (neqb a b).
Notation journal := (journal Name E S C D).
Lemma get_last_or_kept {A} t (l : list A) it : get_last_or (kept t l) it = or_index (pick t l it).
Proof. destruct it as [i|]; cbn [get_last_or pick]; rewrite pyget_spec; [reflexivity|]. rewrite at_last, latest_kept. reflexivity. Qed.
Lemma get_len1_kept {A} t (l : list A) it : get_len1 (kept t l) it = or_index (pick t l it).
Proof. destruct it as [i|]; cbn [get_len1 pick]; rewrite pyget_spec; [reflexivity|]. rewrite at_len1, latest_kept. reflexivity. Qed.
Lemma get_opt_kept {A} t (l : list A) it :
  get_opt (kept t l) it = match it with None => Ok (latest l) | Some i => match at_pos (kept t l) i with Some x => Ok (Some x) | None => Err IndexError end end.
Proof.
  destruct it as [i|]; cbn [get_opt].
  - rewrite pyget_spec. destruct (at_pos (kept t l) i); reflexivity.
  - destruct (kept t l) as [|x r] eqn:Ek.
    + rewrite <- (latest_kept t l), Ek. reflexivity.
    + rewrite <- Ek, pyget_spec, at_last, latest_kept. destruct (latest l) eqn:E2; [reflexivity|]. exfalso.
      rewrite <- (latest_kept t l), Ek in E2. unfold latest in E2. apply nth_error_None in E2. rewrite rev_length in E2. cbn in E2. lia.
Qed.
Lemma latest_map {A B} (f : A -> B) l : latest (map f l) = option_map f (latest l).
Proof. unfold latest. rewrite <- map_rev, nth_error_map. reflexivity. Qed.
Lemma kept_map {A B} (f : A -> B) t l : kept t (map f l) = map f (kept t l).
Proof. unfold kept. destruct (t =? 0); [|reflexivity]. rewrite <- map_rev. destruct (rev l); reflexivity. Qed.
Lemma at_pos_map {A B} (f : A -> B) l i : at_pos (map f l) i = option_map f (at_pos l i).
Proof. unfold at_pos. destruct (0 <=? i)%Z; rewrite <- ?map_rev, nth_error_map; reflexivity. Qed.
Lemma pick_map {A B} (f : A -> B) t l it : pick t (map f l) it = option_map f (pick t l it).
Proof. destruct it as [i|]; cbn [pick]; [rewrite kept_map, at_pos_map; reflexivity | apply latest_map]. Qed.

Lemma journal_gets t (j : journal) os : new t = Ok j ->
  let j' := adds neqb j os in
  (t = 0 \/ t = 1) /\ forall it,
     get_accepted_parameters j' it = or_index (pick t (accs os) it)
  /\ get_weights j' it = or_index (pick t (wts os) it)
  /\ get_distances j' it = or_index (pick t (dsts os) it)
  /\ get_ESS_estimates j' it = or_index (pick t (esss os) it)
  /\ get_accepted_simulations j' it = match it with None => Ok (latest (sims os)) | Some i => match at_pos (kept t (sims os)) i with Some x => Ok (Some x) | None => Err IndexError end end
  /\ get_accepted_cov_mats j' it = match it with None => Ok (latest (covs os)) | Some i => match at_pos (kept t (covs os)) i with Some x => Ok (Some x) | None => Err IndexError end end
  /\ match pick t (users os) it with
     | None => get_parameters j' it = Err IndexError
     | Some pairs => exists d, get_parameters j' it = Ok d /\ forall name, dget neqb d name = last_value neqb pairs name
     end.
Proof.
  intros H j'. split. { unfold new in H. destruct (Nat.eqb_spec t 0); [auto|]. destruct (Nat.eqb_spec t 1); [auto | discriminate]. }
  intros it. destruct (history Name E S C D neqb t j os H) as (I0 & I1 & I2 & I3 & I4 & I5 & I6 & I7). fold j' in I0, I1, I2, I3, I4, I5, I6, I7.
  unfold get_accepted_parameters, get_weights, get_distances, get_ESS_estimates, get_accepted_simulations, get_accepted_cov_mats, get_parameters.
  rewrite I1, I2, I3, I4, I5, I6, I7.
  split; [apply get_last_or_kept|]. split; [apply get_len1_kept|]. split; [apply get_len1_kept|]. split; [apply get_last_or_kept|].
  split; [apply get_opt_kept|]. split; [apply get_opt_kept|]. rewrite get_len1_kept, pick_map.
  destruct (pick t (users os) it) as [pairs|]; cbn [option_map or_index]; [|reflexivity]. eexists. split; [reflexivity|]. intros name. apply dget_dict. exact neqb_spec.
Qed.
Lemma new_bad t : t <> 0 -> t <> 1 -> @new Name E S C D t = Err ValueError.
Proof. intros A B. unfold new. destruct (Nat.eqb_spec t 0); [contradiction|]. destruct (Nat.eqb_spec t 1); [contradiction | reflexivity]. Qed.
End G.

Section W.
Variables (Name S C D : Type) (neqb : Name -> Name -> bool).
Hypothesis neqb_spec : forall a b, reflect (a = b) (neqb a b).
Lemma same_iteration (j : journal Name Q S C D) os i pairs w : new 1 = Ok j ->
  nth_error (users os) i = Some pairs -> nth_error (wts os) i = Some w -> NoDup (map fst pairs) ->
  posterior_mean (adds neqb j os) (Some (Z.of_nat i)) = posterior_mean (@mkj Name Q S C D 1 [] [pairs] [] [] [w] [] [] [] None false) (Some 0%Z).
Proof.
  intros H Hu Hw Hn. destruct (history Name Q S C D neqb 1 j os H) as (_ & _ & I2 & _ & _ & I5 & _). cbn in I2, I5. unfold posterior_mean, ndict, column in *. rewrite I2, I5.
  assert (Hi : forall A (l : list A) x, nth_error l i = Some x -> pyget l (Z.of_nat i) = Ok x).
  { intros A l x Hx. rewrite pyget_spec. unfold at_pos. destruct (Z.leb_spec 0 (Z.of_nat i)); [|lia]. rewrite Nat2Z.id, Hx. reflexivity. }
  assert (Hd : pyget (map (dict_of neqb) (users os)) (Z.of_nat i) = Ok pairs) by (rewrite (Hi _ _ (dict_of neqb pairs)); [rewrite dict_nodup; auto | rewrite nth_error_map; setoid_rewrite Hu; reflexivity]).
  match goal with |- match ?e with _ => _ end = _ => change e with (pyget (map (dict_of neqb) (users os)) (Z.of_nat i)) end.
  rewrite Hd, (Hi _ (wts os) w) by exact Hw. reflexivity.
Qed.
End W.

Lemma count_pos_filter l : count_pos l = length (filter (fun x => negb (Qeq_bool x 0)) l).
Proof. induction l as [|x l IH]; cbn; [reflexivity|]. destruct (Qeq_bool x 0); cbn; rewrite IH; reflexivity. Qed.
