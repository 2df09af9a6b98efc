(** C68, continued: saving a learned network and loading it again. *)
From Coq Require Import Reals Lra String DecimalString DecimalNat DecimalFacts.
From Coq Require Import List.
From Verif Require Import M_Base M_Num M_XReal M_Stats L_PMC M_Learn M_NN M_Pipeline S_Pipeline P_Pipeline P_Pipeline2.
Import ListNotations.
Open Scope nat_scope.

Definition pre (k : string) : string := String.append "net." k.
Lemma pre_inj a b : pre a = pre b -> a = b.
Proof. unfold pre. cbn. intros H. now injection H. Qed.
Lemma pre_len k : String.length (pre k) = 4 + String.length k.
Proof. reflexivity. Qed.
Lemma lookup_hit {A} (d : list (string * A)) k t : NoDup (map fst d) -> In (k, t) d -> lookup k d = Some t.
Proof.
  induction d as [|[k' t'] d IH]; intros Hn Hi; [destruct Hi|]. cbn [map fst] in Hn. apply NoDup_cons_iff in Hn as [Hk Hn]. unfold lookup. cbn [find fst]. destruct Hi as [E|Hi].
  - injection E as -> ->. rewrite String.eqb_refl. reflexivity.
  - assert (E : String.eqb k k' = false). { apply String.eqb_neq. intros ->. apply Hk. apply (in_map fst) in Hi. exact Hi. } rewrite E. apply IH; assumption.
Qed.
Lemma load_self ks d : map (fun kt : string * tensor => (fst kt, fst (snd kt))) d = ks -> NoDup (map fst ks) -> load ks d = Ok d.
Proof.
  intros <- Hn. assert (Hn' : NoDup (map fst d)) by (rewrite map_map in Hn; exact Hn). unfold load.
  assert (E1 : forallb (fun k : string * list nat => match lookup (fst k) d with Some t => if list_eq_dec Nat.eq_dec (fst t) (snd k) then true else false | None => false end) (map (fun kt : string * tensor => (fst kt, fst (snd kt))) d) = true).
  { apply forallb_forall. intros k Hk. apply in_map_iff in Hk as ([k' t] & <- & Hi). cbn [fst snd]. rewrite (lookup_hit d k' t Hn' Hi). destruct (list_eq_dec Nat.eq_dec (fst t) (fst t)); congruence. }
  assert (E2 : forallb (fun kt : string * tensor => existsb (fun k : string * list nat => String.eqb (fst kt) (fst k)) (map (fun kt : string * tensor => (fst kt, fst (snd kt))) d)) d = true).
  { apply forallb_forall. intros kt Hk. apply existsb_exists. exists (fst kt, fst (snd kt)). split; [apply (in_map (fun kt : string * tensor => (fst kt, fst (snd kt)))); exact Hk | apply String.eqb_refl]. }
  rewrite E1, E2. cbn [andb]. f_equal. rewrite map_map. cbn [fst snd]. transitivity (map (fun kt : string * tensor => kt) d); [|apply map_id]. apply map_ext_in. intros [k t] Hi. cbn [fst snd]. rewrite (lookup_hit d k t Hn' Hi). reflexivity.
Qed.
Lemma NoDup_pre l : NoDup l -> NoDup (map pre l).
Proof. induction 1 as [|x l Hx Hl IH]; cbn [map]; constructor; [|exact IH]. intros Hi. apply in_map_iff in Hi as (y & E & Hy). apply pre_inj in E. congruence. Qed.
Lemma longest (l : list string) : l <> [] -> exists k, In k l /\ forall k', In k' l -> String.length k' <= String.length k.
Proof.
  induction l as [|a l IH]; [congruence|]. intros _. destruct l as [|b l]; [exists a; split; [now left|]; intros k' [<-|[]]; lia|]. destruct IH as (k & Hk & Hm); [discriminate|].
  destruct (Nat.le_gt_cases (String.length a) (String.length k)) as [H|H].
  - exists k. split; [now right|]. intros k' [<-|Hk']; [exact H | apply Hm, Hk'].
  - exists a. split; [now left|]. intros k' [<-|Hk']; [lia|]. specialize (Hm k' Hk'). lia.
Qed.
(** the names of a wrapped network are not those of the network *)
Lemma load_wrong c w : Fits c w -> keys c <> [] -> load (keys c) (map (fun kt : string * tensor => (pre (fst kt), snd kt)) w) = Err RuntimeError.
Proof.
  intros [Hk Hn] H0. unfold load. destruct (longest (map fst (keys c))) as (k & Hin & Hmax); [destruct (keys c); [congruence | discriminate]|].
  assert (E2 : forallb (fun kt : string * tensor => existsb (fun k : string * list nat => String.eqb (fst kt) (fst k)) (keys c)) (map (fun kt : string * tensor => (pre (fst kt), snd kt)) w) = false).
  { apply not_true_is_false. intros E. rewrite forallb_forall in E. rewrite <- Hk, map_map in Hin. cbn [fst] in Hin. apply in_map_iff in Hin as ([k' t] & <- & Hi). cbn [fst] in Hmax.
    specialize (E (pre k', t)). cbn [fst] in E. assert (E' : existsb (fun k : string * list nat => String.eqb (pre k') (fst k)) (keys c) = true) by (apply E, (in_map (fun kt : string * tensor => (pre (fst kt), snd kt)) w (k', t) Hi)).
    apply existsb_exists in E' as (q & Hq & Eq). apply String.eqb_eq in Eq. specialize (Hmax (fst q) (in_map fst _ _ Hq)). rewrite <- Eq, pre_len in Hmax. lia. }
  rewrite E2, andb_false_r. reflexivity.
Qed.
Lemma load_net_self c w : Fits c w -> load_net c w = Ok (Plain c w false).
Proof. intros [H1 H2]. unfold load_net. rewrite (load_self (keys c) w H1 H2). reflexivity. Qed.
Lemma load_discard_self c w : Fits c w -> load_discard c (map (fun kt : string * tensor => (pre (fst kt), snd kt)) w) = Ok (Discard (Plain c w false)).
Proof.
  intros [H1 H2]. unfold load_discard. fold pre. rewrite load_self.
  - f_equal. f_equal. f_equal. rewrite <- H1, !map_map. cbn [fst snd]. clear. induction w as [|[k t] w IH]; [reflexivity|]. cbn [map combine fst snd]. now rewrite IH.
  - rewrite <- H1, !map_map. reflexivity.
  - rewrite map_map. cbn [fst]. rewrite <- (map_map fst pre). apply NoDup_pre. exact H2.
Qed.

(** the networks that occur in learned statistics: an instance of a class, without its last output or not, with a scaler in front or not *)
Definition wrapped (c : nclass) (w : sdict) (training : bool) (last : bool) (q : option scaler) : net :=
  let n := Plain c w training in let n' := if last then Discard n else n in match q with Some s => Scaled n' s | None => n' end.

(** C68.  A learned network saved with save_net is restored by fromFile with the same class: the same numbers, the last output dropped if it was, the scaler in front if there was
    one, in evaluation mode.  (previous_statistics and the rescaling have to be given again.) *)
Theorem C68_roundtrip : forall f32 c w b last q deg cross sd prev, Fits c w -> keys c <> [] ->
  exists d file, save_net (mknstats (wrapped c w b last q) deg cross sd prev) true = Ok (d, file) /\ file = q
  /\ forall deg' cross' prev', fromFile f32 d (Some c) file None None None deg' cross' None prev' = Ok (mknstats (wrapped c w false last q) deg' cross' None prev').
Proof.
  intros f32 c w b last q deg cross sd prev Hf Hk. exists (state_dict (wrapped c w b last None)), q. split; [destruct last, q; reflexivity|]. split; [reflexivity|]. intros deg' cross' prev'. unfold fromFile. destruct last; cbn [wrapped state_dict].
  - change (map (fun kt : string * tensor => (String.append "net." (fst kt), snd kt)) w) with (map (fun kt : string * tensor => (pre (fst kt), snd kt)) w). unfold load_net. rewrite (load_wrong c w Hf Hk), (load_discard_self c w Hf). destruct q; reflexivity.
  - rewrite (load_net_self c w Hf). destruct q; reflexivity.
Qed.
Print Assumptions C68_roundtrip.

(** *** The default networks *)
Lemma append_inj p a b : String.append p a = String.append p b -> a = b.
Proof. induction p as [|x p IH]; cbn; intros H; [exact H|]. injection H as H. exact (IH H). Qed.
Lemma append_inj_r s : forall a b, String.append a s = String.append b s -> a = b.
Proof.
  assert (L : forall a, String.length (String.append a s) = String.length a + String.length s) by (induction a as [|x a IH]; [reflexivity|]; cbn; now rewrite IH).
  induction a as [|x a IH]; intros [|y b] H; [reflexivity | | |].
  - exfalso. apply (f_equal String.length) in H. cbn [String.append] in H. change (String.length (String y (String.append b s))) with (S (String.length (String.append b s))) in H. rewrite L in H. lia.
  - exfalso. apply (f_equal String.length) in H. cbn [String.append] in H. change (String.length (String x (String.append a s))) with (S (String.length (String.append a s))) in H. rewrite L in H. lia.
  - cbn in H. injection H as -> H. f_equal. apply IH, H.
Qed.
Lemma digits_inj a b : digits a = digits b -> a = b.
Proof.
  unfold digits. intros H. assert (Hn : forall n, Nat.to_uint n <> Decimal.Nil).
  { intros n E. pose proof (Unsigned.of_to n) as H0. rewrite E in H0. cbn in H0. subst n. discriminate E. }
  apply (f_equal NilZero.uint_of_string) in H. rewrite !NilZero.usu in H by apply Hn. injection H as H. rewrite <- (Unsigned.of_to a), <- (Unsigned.of_to b), H. reflexivity.
Qed.
Lemma layer_names_nodup n : NoDup (layer_names n).
Proof.
  destruct n as [|[|h]]; cbn [layer_names]; [constructor | constructor; [intros [] | constructor]|]. change (NoDup ("fc_in"%string :: (map (fun i => String.append "fc_hidden." (digits i)) (seq 0 h) ++ ["fc_out"%string]))).
  constructor.
  - intros Hi. apply in_app_or in Hi as [Hi|[E|[]]]; [|discriminate]. apply in_map_iff in Hi as (i & E & _). discriminate.
  - generalize (seq_NoDup h 0). generalize (seq 0 h). intros l Hl. induction Hl as [|x l Hx Hl IH]; [cbn; constructor; [intros [] | constructor]|]. cbn [map app]. constructor; [|exact IH].
    intros Hi. apply in_app_or in Hi as [Hi|[E|[]]]; [|discriminate]. apply in_map_iff in Hi as (i & E & Hi). apply append_inj, digits_inj in E. congruence.
Qed.
Lemma combine_fst_nodup {A B} : forall (a : list A) (b : list B), NoDup a -> NoDup (map fst (combine a b)).
Proof.
  induction a as [|x a IH]; intros [|y b] H; cbn [combine map]; try constructor.
  - cbn [fst]. intros Hi. apply in_map_iff in Hi as ([x' y'] & E & Hi). cbn in E. subst x'. apply in_combine_l in Hi. now apply NoDup_cons_iff in H as [H _].
  - apply IH. now apply NoDup_cons_iff in H as [_ H].
Qed.
Fixpoint lastc (s : string) : option Ascii.ascii := match s with EmptyString => None | String x EmptyString => Some x | String _ s' => lastc s' end.
Lemma lastc_append a x s : lastc (String.append a (String x s)) = lastc (String x s).
Proof. induction a as [|y a IH]; [reflexivity|]. cbn [String.append]. rewrite <- IH. destruct a; reflexivity. Qed.
Lemma weight_bias a b : String.append a ".weight" <> String.append b ".bias".
Proof. intros E. apply (f_equal lastc) in E. rewrite !lastc_append in E. discriminate E. Qed.
(** the parameters of a default network have different names *)
Lemma default_keys_nodup act i o h : NoDup (map fst (keys (default_class act i o h))).
Proof.
  cbn [keys default_class]. unfold default_layers. pose proof (combine_fst_nodup _ (sizes i o h) (layer_names_nodup (length (sizes i o h)))) as H. revert H. generalize (combine (layer_names (length (sizes i o h))) (sizes i o h)). intros ls H.
  induction ls as [|[k s] ls IH]; [constructor|]. cbn [map fst] in H. apply NoDup_cons_iff in H as [Hk H]. specialize (IH H). cbn [flat_map app map fst].
  assert (Hw : forall e, In e (map fst (flat_map (fun l : string * (nat * nat) => [(String.append (fst l) ".weight", [snd (snd l); fst (snd l)]); (String.append (fst l) ".bias", [snd (snd l)])]) ls)) -> exists k', In k' (map fst ls) /\ (e = String.append k' ".weight" \/ e = String.append k' ".bias")).
  { intros e He. apply in_map_iff in He as (kv & <- & He). apply in_flat_map in He as (l & Hl & [<-|[<-|[]]]); exists (fst l); (split; [apply in_map; exact Hl | cbn [fst]; auto]). }
  constructor.
  - intros [E|Hi]; [symmetry in E; exact (weight_bias _ _ E)|]. destruct (Hw _ Hi) as (k' & Hk' & [E|E]); [apply append_inj_r in E; congruence | exact (weight_bias _ _ E)].
  - constructor; [|exact IH]. intros Hi. destruct (Hw _ Hi) as (k' & Hk' & [E|E]); [symmetry in E; exact (weight_bias _ _ E) | apply append_inj_r in E; congruence].
Qed.
Lemma default_keys act act' i o h : keys (default_class act i o h) = keys (default_class act' i o h).
Proof. reflexivity. Qed.
Lemma default_keys_some act i o h : keys (default_class act i o h) <> [].
Proof.
  cbn [keys default_class]. unfold default_layers. assert (Hs : sizes i o h <> []) by (unfold sizes; destruct (match h with None => hidden_default i o | Some l => l end); discriminate). destruct (sizes i o h) as [|s [|s' ss]]; [congruence | discriminate | discriminate].
Qed.
(** numbers of the right shapes *)
Definition Shaped (act : xr -> xr) (i o : nat) (h : option (list nat)) (w : sdict) : Prop := map (fun kt => (fst kt, fst (snd kt))) w = keys (default_class act i o h).
Lemma shaped_fits act act' i o h w : Shaped act i o h w -> Fits (default_class act' i o h) w.
Proof. intros H. split; [exact H | apply default_keys_nodup]. Qed.

Section Reload.
  Variable f32 : R -> R.
  Variable draw : Z -> res (list (list xr) * option (list (list (list xr)))).
  Variable randints : nat -> list Z.
  Variable label : Type.
  Variable labels : mat -> res label.
  Variable initial : nclass -> sdict.
  Variable optimise : tdata label -> nat -> nclass -> sdict -> res sdict.
  (** C68.  Statistics learned with a network given by layer sizes: saved, and loaded with the same sizes and the previous statistics, they are the same statistics: equal results,
      or equal errors, on all data. *)
  Theorem C68_reload : forall sc n nval k p s pv sv scaled h epochs t l target sims,
    train_nn f32 draw randints label labels initial optimise sc n nval k p s pv sv scaled (Sizes h) epochs = Ok t -> init draw randints sc n nval k p s pv sv = Ok l -> train l = Some (target, sims) ->
    (forall data e c w w', optimise data e c w = Ok w' -> map (fun kt => (fst kt, fst (snd kt))) w' = keys c) ->
    exists d file st, save_net (get_statistics label t) true = Ok (d, file) /\ fromFile f32 d None file (Some (mcols sims)) (Some (mcols target)) h 1 false None (Some sc) = Ok st
    /\ forall data, embedding f32 st data = embedding f32 (get_statistics label t) data.
  Proof.
    intros sc n nval k p s pv sv scaled h epochs t l target sims H Hl Ht Ho.
    destruct (train_nn_inv _ _ _ _ _ _ _ _ _ _ _ _ _ _ _ _ _ _ _ H) as (l' & target' & sims' & y & yv & osc & x & xv & c & w0 & b & w' & E1 & E2 & _ & _ & E5 & _ & _ & Ea & E8 & ->).
    rewrite Hl in E1. injection E1 as <-. rewrite Ht in E2. injection E2 as <- <-. destruct Ea as [Ea|(h' & Ea & -> & -> & ->)]; [discriminate|]. injection Ea as <-.
    assert (Ew : mcols x = mcols sims). { destruct osc as [q|]; cbn [optscale] in E5; [|injection E5 as <-; reflexivity]. destruct (scale_rows _ _ _ _ E5) as (g & Eg & _). exact Eg. }
    rewrite Ew in *. apply Ho in E8. pose proof (shaped_fits relu relu _ _ _ _ E8) as Hf.
    unfold get_statistics. cbn [t_scaler t_net t_calc]. set (m := mode_after true epochs _). set (c := default_class relu (mcols sims) (mcols target) h) in *.
    destruct (C68_roundtrip f32 c w' m false osc 1 false None (Some sc) Hf (default_keys_some _ _ _ _)) as (d & file & Es & -> & Er). cbn [wrapped] in Es, Er. exists d, osc. eexists. split; [exact Es|]. split.
    - specialize (Er 1 false (Some sc)). unfold fromFile in *. exact Er.
    - intros data. unfold embedding. cbn [nnet nprev ndegree ncross nsd]. destruct (statistics sc data) as [mm|]; [|reflexivity]. destruct osc; reflexivity.
  Qed.
End Reload.
Print Assumptions C68_reload.

(** C68, refuted: for the exponential family the default network has the nonlinearity Softplus; loaded by its sizes it is given ReLU, without an error, and computes something else. *)
Theorem C68_reload_softplus_refuted :
  (forall f32 i o h w b prev, Shaped softplus i o h w ->
     save_net (mknstats (Discard (Plain (default_class softplus i o h) w b)) 1 false None prev) false = Ok (state_dict (Discard (Plain (default_class softplus i o h) w b)), None)
     /\ fromFile f32 (state_dict (Discard (Plain (default_class softplus i o h) w b))) None None (Some i) (Some o) h 1 false None prev
        = Ok (mknstats (Discard (Plain (default_class relu i o h) w false)) 1 false None prev))
  /\ (exists w, Shaped softplus 1 2 (Some [1]) w /\ forall f32, f32 0%R = 0%R ->
       embedding f32 (mknstats (Discard (Plain (default_class softplus 1 2 (Some [1])) w false)) 1 false None None) (PList [Num (XR 0)]) = Ok (mkmat 1 [[XR (ln 2)]])
       /\ embedding f32 (mknstats (Discard (Plain (default_class relu 1 2 (Some [1])) w false)) 1 false None None) (PList [Num (XR 0)]) = Ok (mkmat 1 [[XR 0]])
       /\ ln 2 <> 0%R).
Proof.
  split.
  - intros f32 i o h w b prev H. split; [reflexivity|]. destruct (C68_roundtrip f32 (default_class relu i o h) w b true None 1 false None prev (shaped_fits softplus relu _ _ _ _ H) (default_keys_some _ _ _ _)) as (d & file & Es & -> & Er).
    cbn [wrapped save_net nnet] in Es. injection Es as <-. exact (Er 1 false prev).
  - exists [("fc_in.weight", ([1; 1], [XR 1])); ("fc_in.bias", ([1], [XR 0])); ("fc_out.weight", ([2; 1], [XR 1; XR 1])); ("fc_out.bias", ([2], [XR 0; XR 0]))]%string. split; [reflexivity|]. intros f32 H0.
    split; [|split].
    + cbv -[IZR ln exp Rplus Rmult]. rewrite H0. repeat (rewrite ?Rmult_0_r, ?Rplus_0_r, ?Rmult_1_l, ?Rplus_0_l, ?exp_0). replace (1 + 1)%R with 2%R by lra. reflexivity.
    + cbn. rewrite H0. repeat (rewrite ?Rmult_0_r, ?Rplus_0_r, ?Rmult_1_l, ?Rplus_0_l). unfold Rmax. destruct (Rle_dec 0 0); reflexivity.
    + intros E. pose proof ln_lt_2. lra.
Qed.
Print Assumptions C68_reload_softplus_refuted.

Lemma lookup_in {A} (d : list (string * A)) k t : lookup k d = Some t -> In k (map fst d).
Proof. unfold lookup. destruct (find (fun kt : string * A => String.eqb k (fst kt)) d) as [kt|] eqn:Ef; [|discriminate]. intros _. apply find_some in Ef as [Hi Ee]. apply String.eqb_eq in Ee. rewrite Ee. apply in_map. exact Hi. Qed.
Lemma load_missing (ks : list (string * list nat)) d k : In k (map fst ks) -> ~ In k (map fst d) -> load ks d = Err RuntimeError.
Proof.
  intros Hk Hd. unfold load. assert (E : forallb (fun k => match lookup (fst k) d with Some t => if list_eq_dec Nat.eq_dec (fst t) (snd k) then true else false | None => false end) ks = false).
  { apply not_true_is_false. intros E. rewrite forallb_forall in E. apply in_map_iff in Hk as (kk & <- & Hk). specialize (E kk Hk). destruct (lookup (fst kk) d) as [t|] eqn:El; [|discriminate]. apply Hd. exact (lookup_in _ _ _ El). }
  rewrite E. reflexivity.
Qed.
Lemma load_shape (ks : list (string * list nat)) (d : sdict) k sh t : In (k, sh) ks -> NoDup (map fst d) -> In (k, t) d -> fst t <> sh -> load ks d = Err RuntimeError.
Proof.
  intros Hk Hn Hi Hs. unfold load. assert (E : forallb (fun k => match lookup (fst k) d with Some t => if list_eq_dec Nat.eq_dec (fst t) (snd k) then true else false | None => false end) ks = false).
  { apply not_true_is_false. intros E. rewrite forallb_forall in E. specialize (E _ Hk). cbn [fst snd] in E. rewrite (lookup_hit d k t Hn Hi) in E. destruct (list_eq_dec Nat.eq_dec (fst t) sh); [congruence | discriminate]. }
  rewrite E. reflexivity.
Qed.
Lemma load_unexpected (ks : list (string * list nat)) d k : In k (map fst d) -> ~ In k (map fst ks) -> load ks d = Err RuntimeError.
Proof.
  intros Hk Hd. unfold load. assert (E : forallb (fun kt : string * tensor => existsb (fun k : string * list nat => String.eqb (fst kt) (fst k)) ks) d = false).
  { apply not_true_is_false. intros E. rewrite forallb_forall in E. apply in_map_iff in Hk as (kt & <- & Hk). specialize (E kt Hk). apply existsb_exists in E as (q & Hq & Ee). apply String.eqb_eq in Ee. apply Hd. rewrite Ee. apply in_map. exact Hq. }
  rewrite E, andb_false_r. reflexivity.
Qed.
Definition prekeys (ks : list (string * list nat)) : list (string * list nat) := map (fun k => (String.append "net." (fst k), snd k)) ks.
Lemma prekeys_fst ks : map fst (prekeys ks) = map pre (map fst ks).
Proof. unfold prekeys. rewrite !map_map. reflexivity. Qed.
Lemma load_missing_pre ks d k : In k (map fst ks) -> ~ In (pre k) (map fst d) -> load (prekeys ks) d = Err RuntimeError.
Proof. intros Hk Hd. apply (load_missing _ _ (pre k)); [rewrite prekeys_fst; apply in_map; exact Hk | exact Hd]. Qed.
Lemma load_unexpected_pre ks d k : In k (map fst d) -> ~ In k (map pre (map fst ks)) -> load (prekeys ks) d = Err RuntimeError.
Proof. intros Hk Hd. apply (load_unexpected _ _ k); [exact Hk | rewrite prekeys_fst; exact Hd]. Qed.
Lemma load_refused f32 d c file deg cross refs prev : load (keys c) d = Err RuntimeError -> load (prekeys (keys c)) d = Err RuntimeError -> fromFile f32 d (Some c) file None None None deg cross refs prev = Err RuntimeError.
Proof. intros H1 H2. unfold fromFile, load_net. rewrite H1. unfold load_discard. fold (prekeys (keys c)). rewrite H2. reflexivity. Qed.

(** C68.  What is refused: saving a network with a scaler without a place for the scaler; loading with neither a class nor both sizes, or with a class and sizes; a file in
    which a name is missing, has another shape or is not known, both to the class and to the class without its last output. *)
Theorem C68_refusals : forall f32 st n q d c file i o h deg cross refs prev,
  (nnet st = Scaled n q -> save_net st false = Err RuntimeError)
  /\ (i = None \/ o = None -> fromFile f32 d None file i o h deg cross refs prev = Err RuntimeError)
  /\ (i <> None \/ o <> None \/ h <> None -> fromFile f32 d (Some c) file i o h deg cross refs prev = Err RuntimeError)
  /\ (forall k, In k (map fst (keys c)) -> ~ In k (map fst d) -> ~ In (pre k) (map fst d) -> fromFile f32 d (Some c) file None None None deg cross refs prev = Err RuntimeError)
  /\ (forall k, In k (map fst d) -> ~ In k (map fst (keys c)) -> ~ In k (map pre (map fst (keys c))) -> fromFile f32 d (Some c) file None None None deg cross refs prev = Err RuntimeError)
  /\ (forall k sh t, In (k, sh) (keys c) -> NoDup (map fst d) -> In (k, t) d -> fst t <> sh -> ~ In (pre k) (map fst d) -> fromFile f32 d (Some c) file None None None deg cross refs prev = Err RuntimeError).
Proof.
  intros f32 st n q d c file i o h deg cross refs prev. split; [|split; [|split; [|split; [|split]]]].
  - intros E. unfold save_net. rewrite E. reflexivity.
  - intros [-> | ->]; unfold fromFile; [reflexivity | destruct i; reflexivity].
  - intros [H|[H|H]]; unfold fromFile; destruct i, o, h; try reflexivity; congruence.
  - intros k Hk H1 H2. exact (load_refused f32 d c file deg cross refs prev (load_missing _ _ _ Hk H1) (load_missing_pre _ _ _ Hk H2)).
  - intros k Hk H1 H2. exact (load_refused f32 d c file deg cross refs prev (load_unexpected _ _ _ Hk H1) (load_unexpected_pre _ _ _ Hk H2)).
  - intros k sh t Hk Hn Hi Hsh H2. exact (load_refused f32 d c file deg cross refs prev (load_shape _ _ _ _ _ Hk Hn Hi Hsh) (load_missing_pre _ _ _ (in_map fst _ _ Hk) H2)).
Qed.
Print Assumptions C68_refusals.

(** C68, refuted: a file does not hold everything that the statistics consist of: the standard deviations of the exponential family are not written, and the loaded statistics are
    on another scale without a warning. *)
Theorem C68_scale_not_saved_refuted : forall f32 c w b last q sd prev, Fits c w -> keys c <> [] ->
  save_net (mknstats (wrapped c w b last q) 1 false (Some sd) prev) true = save_net (mknstats (wrapped c w b last q) 1 false None prev) true
  /\ forall d file st, save_net (mknstats (wrapped c w b last q) 1 false (Some sd) prev) true = Ok (d, file) -> fromFile f32 d (Some c) file None None None 1 false None prev = Ok st -> nsd st = None.
Proof.
  intros f32 c w b last q sd prev Hf Hk. split; [reflexivity|]. intros d file st Hs Hl. destruct (C68_roundtrip f32 c w b last q 1 false (Some sd) prev Hf Hk) as (d' & file' & Es & -> & Er). rewrite Hs in Es. injection Es as -> ->. rewrite Er in Hl. injection Hl as <-. reflexivity.
Qed.
Print Assumptions C68_scale_not_saved_refuted.
Example C68_roundtrip_case : exists w, Fits (default_class relu 1 2 (Some [1; 3])) w /\ map fst (keys (default_class relu 1 2 (Some [1; 3]))) =
  ["fc_in.weight"; "fc_in.bias"; "fc_hidden.0.weight"; "fc_hidden.0.bias"; "fc_out.weight"; "fc_out.bias"]%string.
Proof.
  exists (map (fun k => (fst k, (snd k, repeat (XR 1) (fold_right Nat.mul 1 (snd k))))) (keys (default_class relu 1 2 (Some [1; 3])))). split; [split; [reflexivity | apply default_keys_nodup] | reflexivity].
Qed.
