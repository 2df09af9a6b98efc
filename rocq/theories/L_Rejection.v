(** Proofs about RejectionABC. *)
From Verif Require Import M_Base M_Num L_Num M_Journal S_Journal L_Journal L_Journal2 L_Journal3 M_Rejection S_Rejection.
From Coq Require Import Permutation Sorted Lqa Qround.
Open Scope nat_scope.

Section R.
Variables Rng Y E Name : Type.
Variable neqb : Name -> Name -> bool.
Hypothesis neqb_spec : forall a b, reflect (a = b) (neqb a b).
Variable prior : Rng -> Rng * list E.
Variable sim : list E -> Rng -> Rng * option Y.
Variable mkrng : Z -> Rng.
Variable dist : Y -> num.
Variable dist_max : num.
Variable cols : list (Name * (list E -> E)).
Notation Attempt := (Attempt prior sim dist dist_max).
Notation FirstHit := (FirstHit prior sim dist dist_max).
Notation attempt := (attempt Rng Y E prior sim dist dist_max).
Notation sp_loop := (sp_loop Rng Y E prior sim dist dist_max).
Notation sample_parameter := (sample_parameter Rng Y E prior sim dist dist_max).

Lemma attempt_spec r r' th d : attempt r = (r', th, d) <-> Attempt r r' th d.
Proof.
  unfold M_Rejection.attempt, S_Rejection.Attempt. destruct (prior r) as [r1 th1] eqn:E1. destruct (sim th1 r1) as [r2 y] eqn:E2. split.
  - intros H. inversion H; subst. exists r1, y. auto.
  - intros (r1' & y' & H1 & H2 & ->). inversion H1; subst. rewrite E2 in H2. inversion H2; subst. reflexivity.
Qed.
Lemma sp_loop_sound eps fuel : forall r th d c th' d' c', nlt eps d = true -> sp_loop eps fuel r th d c = Ok (th', d', c') ->
  exists k, c' = c + k /\ k <= fuel /\ FirstHit eps r k th' d'.
Proof.
  induction fuel as [|f IH]; intros r th d c th' d' c' Hd H; cbn in H; rewrite Hd in H; [discriminate|].
  destruct (attempt r) as [[r1 th1] d1] eqn:Ea. apply attempt_spec in Ea. destruct (nlt eps d1) eqn:E1.
  - destruct (IH _ _ _ _ _ _ _ E1 H) as (k & -> & Hk & Hf). exists (S k). split; [lia|]. split; [lia|]. eapply miss; eassumption.
  - destruct f; cbn in H; rewrite E1 in H; inversion H; subst; exists 1; (split; [lia|]); (split; [lia|]); eapply hit; eassumption.
Qed.
Lemma sp_loop_complete eps r k th' d' : FirstHit eps r k th' d' -> forall fuel th d c, k <= fuel -> nlt eps d = true ->
  sp_loop eps fuel r th d c = Ok (th', d', c + k).
Proof.
  induction 1 as [r r' th0 d0 Ha Hd0 | r r' th1 d1 k th0 d0 Ha Hd1 Hf IH]; intros fuel th d c Hk Hd; (destruct fuel as [|f]; [lia|]); cbn; rewrite Hd;
    apply attempt_spec in Ha; rewrite Ha.
  - rewrite Nat.add_1_r. destruct f; cbn; rewrite Hd0; reflexivity.
  - rewrite (IH f (Some th1) d1 (S c)) by (assumption || lia). rewrite Nat.add_succ_r. reflexivity.
Qed.
Lemma sample_parameter_iff eps fuel r th d k : nlt eps dist_max = true ->
  (sample_parameter eps fuel r = Ok (th, d, k) <-> k <= fuel /\ FirstHit eps r k th d).
Proof.
  intros Hm. unfold M_Rejection.sample_parameter. split.
  - intros H. destruct (sp_loop_sound eps fuel r None dist_max 0 th d k Hm H) as (k' & -> & Hk & Hf). auto.
  - intros [Hk Hf]. exact (sp_loop_complete eps r k th d Hf fuel None dist_max 0 Hk Hm).
Qed.
Lemma sample_parameter_unbound eps fuel r : nlt eps dist_max = false -> sample_parameter eps fuel r = Err UnboundLocalError.
Proof. intros H. unfold M_Rejection.sample_parameter. destruct fuel; cbn; rewrite H; reflexivity. Qed.
Lemma sample_parameter_ok eps fuel r x : sample_parameter eps fuel r = Ok x -> nlt eps dist_max = true.
Proof. intros H. destruct (nlt eps dist_max) eqn:E1; [reflexivity|]. rewrite sample_parameter_unbound in H by exact E1. discriminate. Qed.
Lemma hit_pos eps r k th d : FirstHit eps r k th d -> 1 <= k.
Proof. destruct 1; lia. Qed.
Lemma hit_below eps r k th d : FirstHit eps r k th d -> nlt eps d = false.
Proof. induction 1; assumption. Qed.

Notation sne := (sample_n_samples_epsilon Rng Y E Name neqb prior sim mkrng dist dist_max cols).
Notation jrn := (jrn E Name).
Notation good := (Draws prior sim dist dist_max mkrng).

Lemma fold_counter (l : list (list E * num * nat)) c : fold_left (fun a r => a + snd r) l c = c + list_sum (map (fun r => snd r) l).
Proof. unfold list_sum. revert c. induction l as [|x l IH]; intros c; cbn [fold_left map fold_right]; [lia|]. rewrite IH. lia. Qed.
Lemma results_good eps fuel seeds results : mapR (fun seed => sample_parameter eps fuel (mkrng seed)) seeds = Ok results ->
  good eps seeds (map (fun r => fst (fst r)) results) (map (fun r => snd (fst r)) results) (map (fun r => snd r) results).
Proof.
  intros H. apply mapR_Ok in H. assert (Hl : length results = length seeds) by (induction H; cbn; congruence).
  unfold Draws. rewrite !map_length. do 3 (split; [exact Hl|]). clear Hl. induction H as [|s x seeds results Hx H IH]; intros i seed Hi; [destruct i; discriminate|].
  destruct i as [|i]; cbn in Hi.
  - inversion Hi; subst. destruct x as [[th d] k]. exists k, th, d. cbn. pose proof (sample_parameter_ok _ _ _ _ Hx) as Hm.
    apply sample_parameter_iff in Hx; [|exact Hm]. destruct Hx as [_ Hf]. auto.
  - destruct (IH i seed Hi) as (k & th & d & A & B & C & D). exists k, th, d. auto.
Qed.

Definition in_range (n : nat) : Prop := (1 < Z.of_nat n * Z.of_nat n <= 2 ^ 31)%Z.
Lemma sne_ok eps n seeds fuel c0 (j j' : jrn) : sne eps n seeds fuel c0 j = Ok j' ->
  in_range n /\ exists rows ds ks, good eps seeds rows ds ks
  /\ j' = with_conf E Name (adds neqb j [AddAcc rows; AddW (ones n); AddEss (ones n); AddDist ds; AddUser (named E Name cols rows)]) (j_nsim j ++ [c0 + list_sum ks]) (j_nsamples j) (j_hasmodel j).
Proof.
  intros H. unfold sample_n_samples_epsilon in H.
  destruct ((Z.of_nat n * Z.of_nat n <=? 1) || (2 ^ 31 <? Z.of_nat n * Z.of_nat n))%Z eqn:Eb; [discriminate|].
  apply orb_false_iff in Eb. destruct Eb as [E1 E2]. apply Z.leb_gt in E1. apply Z.ltb_ge in E2. split; [split; assumption|].
  destruct (mapR _ seeds) as [results|] eqn:Em; [|discriminate]. inversion H; subst. do 3 eexists. split; [eapply results_good; exact Em|].
  rewrite fold_counter. reflexivity.
Qed.
Lemma sne_total eps n seeds fuel c0 (j : jrn) : in_range n -> nlt eps dist_max = true ->
  (forall seed, In seed seeds -> exists k th d, k <= fuel /\ FirstHit eps (mkrng seed) k th d) ->
  exists j', sne eps n seeds fuel c0 j = Ok j'.
Proof.
  intros [H1 H2] Hm Hs. unfold sample_n_samples_epsilon.
  destruct (Z.leb_spec (Z.of_nat n * Z.of_nat n) 1); [lia|]. destruct (Z.ltb_spec (2 ^ 31) (Z.of_nat n * Z.of_nat n)); [lia|]. cbn [orb].
  assert (Hr : exists results, mapR (fun seed => sample_parameter eps fuel (mkrng seed)) seeds = Ok results).
  { clear - Hm Hs. induction seeds as [|s seeds IH]; [exists []; reflexivity|]. destruct IH as [rs Hrs]; [intros x Hx; apply Hs; right; exact Hx|].
    destruct (Hs s (or_introl eq_refl)) as (k & th & d & Hk & Hf). assert (Hx : sample_parameter eps fuel (mkrng s) = Ok (th, d, k)) by (apply sample_parameter_iff; auto).
    eexists. cbn. rewrite Hx, Hrs. reflexivity. }
  destruct Hr as [results ->]. eexists. reflexivity.
Qed.

(** reading back what one call recorded *)
Lemma read_back (j : jrn) rows n ds ks c0 t : new t = Ok j ->
  forall nsim nsamples hm,
  let j' := with_conf E Name (adds neqb (with_conf E Name j (j_nsim j) nsamples hm) [AddAcc rows; AddW (ones n); AddEss (ones n); AddDist ds; AddUser ks]) nsim nsamples c0 in
  get_accepted_parameters j' None = Ok rows /\ get_weights j' None = Ok (ones n) /\ get_distances j' None = Ok ds
  /\ get_parameters j' None = Ok (dict_of neqb ks) /\ j_nsim j' = nsim /\ jtype j' = t.
Proof.
  intros H nsim nsamples hm j'. assert (Hj : j = mkj t [] [] [] [] [] [] [] [] None false) by (unfold new in H; destruct ((t =? 0) || (t =? 1)); congruence).
  subst j j'. cbn. destruct (Qeq_bool _ _); cbn; unfold put; destruct (t =? 0); cbn; auto 10.
Qed.

Notation sample := (sample Rng Y E Name neqb prior sim mkrng dist dist_max cols).
Lemma sample_eps n eps full seeds fuel c0 j : length seeds = n ->
  sample (Some n) None (Some eps) None full seeds fuel c0 = Ok j ->
  exists rows ds ks, good eps seeds rows ds ks
  /\ get_accepted_parameters j None = Ok rows /\ get_distances j None = Ok ds /\ get_weights j None = Ok (Col (repeat 1%Q n))
  /\ get_parameters j None = Ok (dict_of neqb (map (fun c => (fst c, map (fun row => [snd c row]) rows)) cols))
  /\ j_nsim j = [c0 + list_sum ks].
Proof.
  intros Hl H. unfold M_Rejection.sample in H. cbn in H. destruct (new full) as [j0|] eqn:En; [|discriminate].
  apply sne_ok in H. destruct H as (_ & rows & ds & ks & Hg & ->). exists rows, ds, ks. split; [exact Hg|].
  assert (Hns : j_nsim j0 = []) by (unfold new in En; destruct ((full =? 0) || (full =? 1)); inversion En; reflexivity).
  destruct (read_back j0 rows n ds (named E Name cols rows) true full En (j_nsim j0 ++ [c0 + list_sum ks]) (Some n) true) as (A & B & C & D & F & G).
  split; [exact A|]. split; [exact C|]. split; [exact B|]. split; [exact D|]. cbn. rewrite Hns. reflexivity.
Qed.
Lemma sample_eps_total n eps full seeds fuel c0 : length seeds = n -> (2 <= Z.of_nat n <= 46340)%Z -> full = 0 \/ full = 1 -> nlt eps dist_max = true ->
  (forall seed, In seed seeds -> exists k th d, k <= fuel /\ FirstHit eps (mkrng seed) k th d) ->
  exists j, sample (Some n) None (Some eps) None full seeds fuel c0 = Ok j.
Proof.
  intros Hl Hn Hf Hm Hs. unfold M_Rejection.sample. cbn. destruct (@new Name E unit unit (list num) full) as [j0|] eqn:En.
  - apply sne_total; auto. unfold in_range. nia.
  - unfold new in En. destruct Hf as [-> | ->]; discriminate.
Qed.
Lemma sample_one eps full seeds fuel c0 : full = 0 \/ full = 1 -> sample (Some 1) None (Some eps) None full seeds fuel c0 = Err ValueError.
Proof. intros [-> | ->]; reflexivity. Qed.
Lemma sample_many n eps full seeds fuel c0 : full = 0 \/ full = 1 -> (46341 <= Z.of_nat n)%Z -> sample (Some n) None (Some eps) None full seeds fuel c0 = Err ValueError.
Proof.
  intros Hf Hn. unfold M_Rejection.sample. cbn. assert (Hnew : exists j0, @new Name E unit unit (list num) full = Ok j0) by (destruct Hf as [-> | ->]; eexists; reflexivity).
  destruct Hnew as [j0 ->]. unfold sample_n_samples_epsilon. destruct (Z.ltb_spec (2 ^ 31) (Z.of_nat n * Z.of_nat n)) as [H|H]; [rewrite orb_true_r; reflexivity|]. nia.
Qed.

(** * The clean-up of a fixed budget *)
Lemma combine_pick {A B} (P : B -> bool) (a0 : A) (b0 : B) rows ds : length rows = length ds ->
  let picked := filter (fun i => P (nth i ds b0)) (seq 0 (length ds)) in
  combine (map (fun i => nth i rows a0) picked) (map (fun i => nth i ds b0) picked) = filter (fun rd => P (snd rd)) (combine rows ds).
Proof.
  cbv zeta. revert ds. induction rows as [|x rows IH]; intros [|d ds] Hl; cbn in Hl; try discriminate; [reflexivity|].
  cbn [length seq filter nth combine snd]. rewrite <- seq_shift.
  assert (Hfm : forall l, filter (fun i => P (nth i (d :: ds) b0)) (map S l) = map S (filter (fun i => P (nth i ds b0)) l)).
  { induction l as [|i l IHl]; cbn [map filter]; [reflexivity|]. rewrite IHl. change (nth (S i) (d :: ds) b0) with (nth i ds b0). destruct (P (nth i ds b0)); reflexivity. }
  rewrite Hfm. assert (Htail : forall l, combine (map (fun i => nth i (x :: rows) a0) (map S l)) (map (fun i => nth i (d :: ds) b0) (map S l))
                       = combine (map (fun i => nth i rows a0) l) (map (fun i => nth i ds b0) l)) by (intros l; rewrite !map_map; reflexivity).
  destruct (P d); cbn [map combine nth]; rewrite Htail, IH by lia; reflexivity.
Qed.
Lemma dict_of_map {V W} (f : V -> W) (l : list (Name * V)) :
  dict_of neqb (map (fun kv => (fst kv, f (snd kv))) l) = map (fun kv => (fst kv, f (snd kv))) (dict_of neqb l).
Proof.
  unfold dict_of. assert (Hg : forall d, fold_left (fun d kv => dset neqb d (fst kv) (snd kv)) (map (fun kv => (fst kv, f (snd kv))) l) (map (fun kv => (fst kv, f (snd kv))) d)
     = map (fun kv => (fst kv, f (snd kv))) (fold_left (fun d kv => dset neqb d (fst kv) (snd kv)) l d)).
  { induction l as [|[k v] l IH]; intros d; cbn [map fold_left fst snd]; [reflexivity|]. rewrite <- IH. f_equal.
    clear. induction d as [|[k' v'] d IHd]; cbn; [reflexivity|]. destruct (neqb k k'); cbn; [reflexivity|]. rewrite IHd. reflexivity. }
  exact (Hg []).
Qed.
Lemma dict_of_in {V} (l : list (Name * V)) kv : In kv (dict_of neqb l) -> exists k', In (k', snd kv) l.
Proof.
  unfold dict_of. assert (Hg : forall d, In kv (fold_left (fun d kv => dset neqb d (fst kv) (snd kv)) l d) -> (exists k', In (k', snd kv) d) \/ exists k', In (k', snd kv) l).
  { induction l as [|[k v] l IH]; intros d H; cbn [fold_left fst snd] in H.
    - left. exists (fst kv). destruct kv; exact H.
    - destruct (IH _ H) as [[k' Hk]|[k' Hk]]; [|right; exists k'; right; exact Hk].
      assert (Hd : (exists k', In (k', snd kv) d) \/ v = snd kv).
      { clear - Hk. induction d as [|[k1 v1] d IHd]; cbn in Hk.
        - destruct Hk as [Hk|[]]. inversion Hk; auto.
        - destruct (neqb k k1).
          + destruct Hk as [Hk|Hk]; [inversion Hk; auto | left; exists k'; right; exact Hk].
          + destruct Hk as [Hk|Hk]; [left; exists k'; left; exact Hk|]. destruct (IHd Hk) as [[k2 H2]|H2]; [left; exists k2; right; exact H2 | auto]. }
      destruct Hd as [Hd| ->]; [left; exact Hd | right; exists k; left; destruct kv; reflexivity]. }
  intros H. destruct (Hg [] H) as [[k' []]|H']; exact H'.
Qed.

Lemma dset_names {V} (d : list (Name * V)) k v :
  (In k (map fst d) -> map fst (dset neqb d k v) = map fst d) /\ (~ In k (map fst d) -> map fst (dset neqb d k v) = map fst d ++ [k]).
Proof.
  induction d as [|[k1 v1] d IHd]; cbn; [tauto|]. destruct (neqb_spec k k1) as [->|Hk]; cbn.
  - split; [reflexivity | intros Hn; exfalso; apply Hn; left; reflexivity].
  - destruct IHd as [A B]. split; [intros [->|Hi]; [congruence | rewrite A by exact Hi; reflexivity] | intros Hn; rewrite B by tauto; reflexivity].
Qed.
Lemma dict_of_nodup {V} (l : list (Name * V)) : NoDup (map fst (dict_of neqb l)).
Proof.
  unfold dict_of. assert (Hg : forall d : list (Name * V), NoDup (map fst d) -> NoDup (map fst (fold_left (fun d kv => dset neqb d (fst kv) (snd kv)) l d))).
  { induction l as [|[k v] l IH]; intros d Hd; cbn [fold_left]; [exact Hd|]. apply IH. cbn [fst snd].
    destruct (in_dec (fun a b => match neqb_spec a b with ReflectT _ p => left p | ReflectF _ n => right n end) k (map fst d)) as [Hi|Hi].
    - rewrite (proj1 (dset_names d k v) Hi). exact Hd.
    - rewrite (proj2 (dset_names d k v) Hi). apply (Permutation_NoDup (l := k :: map fst d)); [apply Permutation_cons_append | constructor; assumption]. }
  apply Hg. constructor.
Qed.

Notation cleaned := (Kept neqb cols).

Lemma cleanup_ok (j j' : jrn) rows ds q thr ns t : (t = 0 \/ t = 1) -> jtype j = t -> length rows = length ds ->
  get_accepted_parameters j None = Ok rows -> get_distances j None = Ok ds ->
  get_parameters j None = Ok (dict_of neqb (named E Name cols rows)) -> j_nsim j = [ns] ->
  journal_cleanup E Name neqb j q thr = Ok j' -> cleaned rows ds q thr [ns] j'.
Proof.
  intros Ht Hty Hl Ha Hd Hp Hns H. unfold journal_cleanup in H. unfold get_distances, get_len1 in Hd. rewrite pyget_spec, at_len1 in Hd.
  rewrite pyget_spec, at_last, Hd in H.
  destruct (match q with Some q => quantile ds q | None => Ok thr end) as [cutoff|] eqn:Ec; [|discriminate].
  set (picked := filter (fun i => nlt (nth i ds NaN) cutoff) (seq 0 (length ds))) in *.
  destruct (Nat.eqb_spec (length picked) 0) as [|Hne]; [discriminate|]. rewrite Hty in H.
  destruct (new t) as [j0|] eqn:En; [|discriminate]. rewrite Ha, Hp in H.
  assert (Hlt : forall i, In i picked -> i < length ds) by (intros i Hi; apply filter_In in Hi; destruct Hi as [Hi _]; apply in_seq in Hi; lia).
  rewrite (mapR_map _ (fun i => nth i rows [])) in H by (intros i Hi; apply pyget_nat; rewrite Hl; apply Hlt; exact Hi).
  assert (Hnd : mapR (fun kc => match mapR (fun i => pyget (snd kc) (Z.of_nat i)) picked with Ok c => Ok (fst kc, c) | Err e => Err e end) (dict_of neqb (named E Name cols rows))
                = Ok (map (fun kc => (fst kc, map (fun i => nth i (snd kc) []) picked)) (dict_of neqb (named E Name cols rows)))).
  { apply mapR_map. intros kc Hin. apply dict_of_in in Hin. destruct Hin as [k' Hin]. unfold named in Hin. apply in_map_iff in Hin. destruct Hin as (c & Hc & _).
    injection Hc as _ Hc. rewrite (mapR_map _ (fun i => nth i (snd kc) [])); [reflexivity|].
    intros i Hi. apply pyget_nat. rewrite <- Hc, map_length, Hl. apply Hlt. exact Hi. }
  unfold column in H. rewrite Hnd in H. rewrite Hns in H. change (pyget [ns] (-1)) with (Ok ns) in H. injection H as <-.
  exists cutoff, (map (fun i => nth i rows []) picked), (map (fun i => nth i ds NaN) picked).
  split; [destruct q; congruence|]. split; [exact (combine_pick (fun d => nlt d cutoff) [] NaN rows ds Hl)|]. split; [rewrite !map_length; reflexivity|].
  split; [intros E0; apply Hne; rewrite <- (map_length (fun i => nth i rows []) picked), E0; reflexivity|].
  match goal with |- context [AddUser ?nd] => idtac | _ => idtac end.
  rewrite map_length.
  assert (Hdict : dict_of neqb (map (fun kc => (fst kc, map (fun i => nth i (snd kc) []) picked)) (dict_of neqb (named E Name cols rows)))
                = dict_of neqb (map (fun c => (fst c, map (fun row => [snd c row]) (map (fun i => nth i rows []) picked))) cols)).
  { assert (En2 : map (fun c : Name * (list E -> E) => (fst c, map (fun row => [snd c row]) (map (fun i => nth i rows []) picked))) cols
                 = map (fun kc => (fst kc, map (fun i => nth i (snd kc) []) picked)) (named E Name cols rows)).
    { unfold named. rewrite map_map. apply map_ext. intros c. cbn [fst snd]. f_equal. rewrite map_map. apply map_ext_in. intros i Hi.
      rewrite (nth_indep (map (fun row => [snd c row]) rows) [] ((fun row => [snd c row]) [])) by (rewrite map_length, Hl; apply Hlt; exact Hi). rewrite (map_nth (fun row => [snd c row])). reflexivity. }
    rewrite En2, (dict_of_map (fun c => map (fun i => nth i c []) picked) (named E Name cols rows)). apply dict_nodup; [exact neqb_spec|]. rewrite map_map. cbn [fst]. apply dict_of_nodup. }
  destruct (read_back j0 (map (fun i => nth i rows []) picked) (length picked) (map (fun i => nth i ds NaN) picked)
              (map (fun kc => (fst kc, map (fun i => nth i (snd kc) []) picked)) (dict_of neqb (named E Name cols rows))) false t En [ns] (Some (length picked)) false) as (A & B & C & D & F & G).
  assert (Hj0 : with_conf E Name j0 (j_nsim j0) (Some (length picked)) false = with_conf E Name j0 (j_nsim j0) (Some (length picked)) false) by reflexivity.
  assert (Hadds : forall (jj : jrn) nsim nsamp hm os, with_conf E Name (adds neqb (with_conf E Name jj (j_nsim jj) nsamp hm) os) nsim nsamp hm = with_conf E Name (adds neqb jj os) nsim nsamp hm).
  { clear. intros jj nsim nsamp hm os. unfold adds. revert jj. induction os as [|o os IH]; intros jj; cbn [fold_left]; [reflexivity|].
    rewrite <- (IH (fst (add neqb jj o))). f_equal. f_equal. destruct o; try reflexivity. cbn. destruct (ess_of w); reflexivity. }
  rewrite Hadds in A, B, C, D, F, G.
  split; [exact A|]. split; [exact C|]. split; [exact B|]. split; [exact (eq_trans D (f_equal (@Ok _) Hdict))|]. split; reflexivity.
Qed.

Lemma sample_budget b q epsilon full seeds fuel c0 j : length seeds = b ->
  sample None (Some b) epsilon q full seeds fuel c0 = Ok j ->
  (q = None <-> epsilon <> None) /\
  exists rows ds ks, good (Fin max_double) seeds rows ds ks
  /\ cleaned rows ds q (match epsilon with Some e => e | None => NaN end) [c0 + list_sum ks] j.
Proof.
  intros Hl H. unfold M_Rejection.sample in H. cbn -[max_double] in H.
  destruct (Bool.eqb match q with Some _ => false | None => true end match epsilon with Some _ => false | None => true end) eqn:Eq; [discriminate|].
  split. { destruct q, epsilon; cbn in Eq; try discriminate; split; congruence. }
  destruct (new full) as [j0|] eqn:En; [|discriminate].
  destruct (sne (Fin max_double) b seeds fuel c0 _) as [j1|] eqn:E1; [|discriminate].
  apply sne_ok in E1. destruct E1 as (_ & rows & ds & ks & Hg & ->). exists rows, ds, ks. split; [exact Hg|].
  assert (Hns : j_nsim j0 = []) by (unfold new in En; destruct ((full =? 0) || (full =? 1)); inversion En; reflexivity).
  assert (Hfull : full = 0 \/ full = 1). { unfold new in En. destruct (Nat.eqb_spec full 0); [auto|]. destruct (Nat.eqb_spec full 1); [auto | discriminate]. }
  destruct (read_back j0 rows b ds (named E Name cols rows) true full En (j_nsim j0 ++ [c0 + list_sum ks]) None true) as (A & B & C & D & F & G).
  eapply cleanup_ok; [exact Hfull | exact G | destruct Hg as (H1 & H2 & _); congruence | exact A | exact C | exact D | cbn; rewrite Hns; reflexivity | exact H].
Qed.

(** * Further facts *)
Lemma sample_unbound n eps full seeds fuel c0 : full = 0 \/ full = 1 -> (2 <= Z.of_nat n <= 46340)%Z -> seeds <> [] -> nlt eps dist_max = false ->
  sample (Some n) None (Some eps) None full seeds fuel c0 = Err UnboundLocalError.
Proof.
  intros Hf Hn Hs Hm. unfold M_Rejection.sample. cbn. assert (Hnew : exists j0, @new Name E unit unit (list num) full = Ok j0) by (destruct Hf as [-> | ->]; eexists; reflexivity).
  destruct Hnew as [j0 ->]. unfold sample_n_samples_epsilon. destruct (Z.leb_spec (Z.of_nat n * Z.of_nat n) 1); [nia|]. destruct (Z.ltb_spec (2 ^ 31) (Z.of_nat n * Z.of_nat n)); [nia|].
  destruct seeds as [|s seeds]; [congruence|]. cbn [orb mapR]. rewrite sample_parameter_unbound by exact Hm. reflexivity.
Qed.
Lemma budget_unbound b q epsilon full seeds fuel c0 : full = 0 \/ full = 1 -> (2 <= Z.of_nat b <= 46340)%Z -> seeds <> [] -> (q = None <-> epsilon <> None) ->
  nlt (Fin max_double) dist_max = false -> sample None (Some b) epsilon q full seeds fuel c0 = Err UnboundLocalError.
Proof.
  intros Hf Hn Hs Hq Hm. unfold M_Rejection.sample. cbn -[max_double].
  assert (Eq : Bool.eqb match q with Some _ => false | None => true end match epsilon with Some _ => false | None => true end = false).
  { destruct q, epsilon; try reflexivity; exfalso; destruct Hq as [A B]; [specialize (B ltac:(congruence)); discriminate | apply A; reflexivity]. }
  rewrite Eq. assert (Hnew : exists j0, @new Name E unit unit (list num) full = Ok j0) by (destruct Hf as [-> | ->]; eexists; reflexivity).
  destruct Hnew as [j0 ->]. unfold sample_n_samples_epsilon. destruct (Z.leb_spec (Z.of_nat b * Z.of_nat b) 1); [nia|]. destruct (Z.ltb_spec (2 ^ 31) (Z.of_nat b * Z.of_nat b)); [nia|].
  destruct seeds as [|s seeds]; [congruence|]. cbn [orb mapR]. rewrite sample_parameter_unbound by exact Hm. reflexivity.
Qed.
Lemma draws_below eps seeds rows ds ks d : good eps seeds rows ds ks -> In d ds -> nle d eps = true \/ is_nan d = true \/ is_nan eps = true.
Proof.
  intros (_ & Hd & _ & H) Hin. apply In_nth_error in Hin. destruct Hin as [i Hi].
  destruct (nth_error seeds i) as [s|] eqn:Es.
  - destruct (H i s Es) as (k & th & d' & _ & B & _ & F). rewrite Hi in B. injection B as <-. apply nlt_false. exact (hit_below _ _ _ _ _ F).
  - apply nth_error_None in Es. assert (i < length ds) by (apply nth_error_Some; congruence). lia.
Qed.
Lemma first_hit_det eps r k th d k' th' d' : FirstHit eps r k th d -> FirstHit eps r k' th' d' -> k = k' /\ th = th' /\ d = d'.
Proof.
  intros H. revert k' th' d'. induction H as [r r1 th d Ha Hd | r r1 th0 d0 k th d Ha Hd H IH]; intros k' th' d' H';
    inversion H' as [? r2 ? ? Ha' Hd' | ? r2 th1 d1 k1 ? ? Ha' Hd' H1]; subst; apply attempt_spec in Ha; apply attempt_spec in Ha'; rewrite Ha in Ha'; inversion Ha'; subst; try congruence; auto.
  destruct (IH _ _ _ H1) as (-> & -> & ->). auto.
Qed.
Lemma equal_seeds eps seeds rows ds ks i j s : good eps seeds rows ds ks -> nth_error seeds i = Some s -> nth_error seeds j = Some s ->
  nth_error rows i = nth_error rows j /\ nth_error ds i = nth_error ds j.
Proof.
  intros (_ & _ & _ & H) Hi Hj. destruct (H i s Hi) as (k & th & d & A & B & _ & F). destruct (H j s Hj) as (k' & th' & d' & A' & B' & _ & F').
  destruct (first_hit_det _ _ _ _ _ _ _ _ F F') as (_ & <- & <-). split; congruence.
Qed.
(** with all distances at most the threshold every sample needs one attempt *)
Lemma draws_one eps seeds rows ds ks : (forall r r' th d, Attempt r r' th d -> nlt eps d = false) -> good eps seeds rows ds ks -> ks = repeat 1 (length seeds).
Proof.
  intros Ha (_ & _ & Hk & H). assert (Hall : forall i, i < length seeds -> nth_error ks i = Some 1).
  { intros i Hi. apply nth_error_Some in Hi. destruct (nth_error seeds i) as [s|] eqn:Es; [|congruence]. destruct (H i s Es) as (k & th & d & _ & _ & A & F).
    inversion F as [? ? ? ? ? ? | ? ? ? ? ? ? ? At Hn ?]; subst; [exact A|]. rewrite (Ha _ _ _ _ At) in Hn. discriminate. }
  clear H. revert ks Hk Hall. induction seeds as [|s seeds IH]; intros [|k ks] Hk Hall; try discriminate; [reflexivity|].
  cbn. specialize (Hall 0 ltac:(cbn; lia)) as H0. cbn in H0. injection H0 as ->. f_equal. apply IH; [cbn in Hk; lia|]. intros i Hi. exact (Hall (S i) ltac:(cbn; lia)).
Qed.
End R.

(** * Counting below a quantile *)
Open Scope Q_scope.
Lemma filter_count_perm {A} (P : A -> bool) l l' : Permutation l l' -> length (filter P l) = length (filter P l').
Proof.
  induction 1 as [|x l l' H IH|x y l|l l1 l2 H1 IH1 H2 IH2]; cbn; try reflexivity.
  - destruct (P x); cbn; congruence.
  - destruct (P x), (P y); reflexivity.
  - congruence.
Qed.
Lemma distinct_cons x l : distinct (x :: l) <-> (forall y, In y l -> ~ x == y) /\ distinct l.
Proof.
  split.
  - intros H. split.
    + intros y Hy. destruct (In_nth l y 0 Hy) as (j & Hj & Hn). specialize (H 0%nat (S j)). cbn in H. rewrite Hn in H. apply H; lia.
    + intros i j Hij Hj. apply (H (S i) (S j)); cbn; lia.
  - intros [H1 H2] i j Hij Hj. destruct i as [|i], j as [|j]; cbn in *; try lia; [apply H1, nth_In; lia | apply H2; lia].
Qed.
Lemma distinct_perm l l' : Permutation l l' -> distinct l -> distinct l'.
Proof.
  induction 1 as [|x l l' H IH|x y l|l l1 l2 H1 IH1 H2 IH2]; intros Hd; auto.
  - apply distinct_cons in Hd. apply distinct_cons. destruct Hd as [A B]. split; [|apply IH; exact B]. intros z Hz. apply A. apply (Permutation_in _ (Permutation_sym H)). exact Hz.
  - apply distinct_cons in Hd. destruct Hd as [A B]. apply distinct_cons in B. destruct B as [B C]. apply distinct_cons. split; [|apply distinct_cons; split; [|exact C]].
    + intros z [<-|Hz]; [|apply B; exact Hz]. intros E0. apply (A x (or_introl eq_refl)). symmetry. exact E0.
    + intros z Hz. apply A. right. exact Hz.
Qed.
Lemma sorted_strict s : qsorted s -> distinct s -> forall i j, (i < j)%nat -> (j < length s)%nat -> nth i s 0 < nth j s 0.
Proof.
  intros Hs Hd i j Hij Hj. pose proof (qsorted_nth s Hs i j 0 ltac:(lia) Hj) as Hle. pose proof (Hd i j Hij Hj) as Hn.
  apply Qle_lteq in Hle. destruct Hle as [H|H]; [exact H | contradiction].
Qed.
Lemma count_prefix (P : Q -> bool) s k : (k <= length s)%nat -> (forall i, (i < k)%nat -> P (nth i s 0) = true) -> (forall i, (k <= i)%nat -> (i < length s)%nat -> P (nth i s 0) = false) ->
  length (filter P s) = k.
Proof.
  revert k. induction s as [|x s IH]; intros k Hk H1 H2; cbn in Hk; [cbn; lia|]. destruct k as [|k].
  - cbn. assert (Hx : P x = false) by (apply (H2 0%nat); cbn; lia). rewrite Hx. apply IH; [lia | intros; lia|]. intros i _ Hi. apply (H2 (S i)); cbn; lia.
  - cbn. assert (Hx : P x = true) by (apply (H1 0%nat); lia). rewrite Hx. cbn. f_equal. apply IH; [lia | intros i Hi; apply (H1 (S i)); lia | intros i Hi Hi2; apply (H2 (S i)); cbn; lia].
Qed.
Lemma count_below_quantile ql q c : distinct ql -> ql <> [] -> 0 <= q -> q <= 1 -> quantile (map Fin ql) q = Ok (Fin c) ->
  Z.of_nat (length (filter (fun x => nlt (Fin x) (Fin c)) ql)) = Qceiling (rank (length ql) q).
Proof.
  intros Hd Hne H0 H1 Hq. destruct (quantile_fin ql q Hne H0 H1) as (s & c' & Hp & Hs & Hq' & Hc). rewrite Hq in Hq'. injection Hq' as <-.
  assert (Hn : (length ql <> 0)%nat) by (destruct ql; [congruence | cbn; lia]).
  destruct (floor_range (length ql) q Hn H0 H1) as [Hp1 Hp0]. assert (Hlen : length s = length ql) by (apply Permutation_length; exact Hp).
  rewrite (filter_count_perm _ ql s) by (symmetry; exact Hp).
  apply (distinct_perm ql s (Permutation_sym Hp)) in Hd.
  pose proof (sorted_strict s Hs Hd) as Hst.
  unfold qstat in Hc. set (n := length ql) in *. set (v := rank n q) in *. set (p := Z.to_nat (Qfloor v)) in *. set (t := v - inject_Z (Qfloor v)) in *.
  destruct (frac_range v) as [F0 F1]. fold t in F0, F1.
  destruct (Qlt_le_dec 0 t) as [Ht|Ht].
  - (* strictly between: p + 1 values *)
    assert (Hceil : Qceiling v = (Qfloor v + 1)%Z).
    { assert (A : (Qceiling v <= Qfloor v + 1)%Z). { rewrite <- (Qceiling_Z (Qfloor v + 1)). apply Qceiling_resp_le. rewrite inject_Z_plus. unfold t in F1. unfold inject_Z at 2. lra. }
      assert (B : (Qfloor v < Qceiling v)%Z). { rewrite Zlt_Qlt. pose proof (Qle_ceiling v). unfold t in Ht. lra. }
      lia. }
    assert (Hpn : (S p < n)%nat).
    { destruct (rank_range n q Hn H0 H1) as [_ Hr]. fold v in Hr. assert (Hv : inject_Z (Qfloor v) < inject_Z (Z.of_nat n - 1)) by (unfold t in Ht; lra).
      rewrite <- Zlt_Qlt in Hv. lia. }
    rewrite Nat.min_l in Hc by lia.
    assert (Hmid : nth p s 0 < c /\ c < nth (S p) s 0).
    { pose proof (Hst p (S p) ltac:(lia) ltac:(lia)) as Hlt. rewrite Hc. clear - Hlt Ht F1. set (a := nth p s 0) in *. set (b := nth (S p) s 0) in *. split; nra. }
    rewrite (count_prefix _ s (S p)); [lia | lia | |].
    + intros i Hi. apply nlt_fin. destruct (Nat.eq_dec i p) as [->|Hip]; [tauto|]. pose proof (Hst i p ltac:(lia) ltac:(lia)). lra.
    + intros i Hi Hi2. apply not_true_iff_false. rewrite nlt_fin. destruct (Nat.eq_dec i (S p)) as [->|Hip]; [lra|]. pose proof (Hst (S p) i ltac:(lia) Hi2). lra.
  - (* at a sample: p values *)
    assert (Ht0 : t == 0) by lra.
    assert (Hceil : Qceiling v = Qfloor v). { unfold t in Ht0. assert (E0 : v == inject_Z (Qfloor v)) by lra. rewrite E0 at 1. apply Qceiling_Z. }
    assert (Hcp : c == nth p s 0). { rewrite Hc, Ht0. ring. }
    rewrite (count_prefix _ s p); [lia | lia | |].
    + intros i Hi. apply nlt_fin. rewrite Hcp. apply Hst; lia.
    + intros i Hi Hi2. apply not_true_iff_false. rewrite nlt_fin, Hcp. destruct (Nat.eq_dec i p) as [->|Hip]; [lra|]. pose proof (Hst p i ltac:(lia) Hi2). lra.
Qed.
