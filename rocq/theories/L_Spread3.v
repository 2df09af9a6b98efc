(** Proofs for C96: graphs whose parameters were never sampled. *)
From Coq Require Import Reals.
From Verif Require Import M_Base M_Num M_XReal M_Infer M_PMCABC M_RSMCABC M_SMCABC M_SABC M_Subsim M_PMC M_Graph S_Graph L_Graph L_Graph2 L_Graph3 L_Graph4 L_Graph5 M_Worker S_Worker L_Worker M_Worker2 L_Worker2 S_Spread L_Spread L_Spread2.
Open Scope nat_scope.

Section Fresh.
Variables (g : graph) (roots o : list nat) (base : nat -> option (list Q)) (tries k : nat).
Hypothesis Hg : ordinary g roots o base.
Hypothesis Hs : steady g o.
Notation fits := (fits g o).
Notation careful := (careful g o).
Notation acceptable := (acceptable g o base).
Notation Stands := (Stands g roots o base).
Notation Unsampled := (Unsampled g roots o base).
Notation on_vector := (on_vector (set_of g roots o base) (dens_of g roots o base) (prior_of g roots o base tries) (sim_of g roots o base k)).
Notation on_graph := (on_graph g roots tries k).
Lemma in_graph n : In n o -> exists r, In r roots /\ (n = r \/ Anc g n r).
Proof.
  destruct Hg as [Hwf _ _ _ _ _ Ho]. apply (ParamOrder_order g Hwf) in Ho. intros H. rewrite Ho in H. exact (o_D g roots Hwf n H).
Qed.
Lemma set_fresh th s : Unsampled s -> fits th ->
  (acceptable th /\ exists s' j, set_parameters g roots th s = (s', Ok (true, j)) /\ ctr s' = ctr s /\ Stands s' th)
  \/ (~ acceptable th /\ exists s' j, set_parameters g roots th s = (s', Ok (false, j)) /\ ctr s' = ctr s /\ Unsampled s').
Proof.
  intros (Hcl & Hv & Hout) Ht. pose proof in_graph as IG. destruct Hg as [Hwf [Hi Hh] Hp Hd Hc Hb Ho]. pose proof (ParamOrder_order g Hwf roots o) as PO. apply PO in Ho. clear PO. clear Hg. pose proof (order_NoDup g roots) as ND. rewrite <- Ho in ND.
  assert (Hl : length o = length th) by (clear - Ht; induction Ht; cbn; lia).
  destruct (set_parameters_spec g Hwf roots th s Hi Hcl Hv) as (b & j & s' & E & Hj & Hval & Hv' & Hc' & Hok & Hb').
  { rewrite <- Ho. intros i n Hn. clear - Ht Hn. revert i Hn. induction Ht as [|a w os ths H1 H2 IH]; intros [|i] Hn; cbn in *; try discriminate; [injection Hn as <-; eauto|eauto]. }
  rewrite <- Ho in Hj, Hval, Hok, Hb'.
  pose proof (quiet_ctr (set_parameters g roots th) s (q_set_parameters g roots th)) as Q. rewrite E in Q. cbn [fst] in Q.
  assert (IN : forall i n v, i <= j -> nth_error o i = Some n -> gchk_out g n (inputs_at g (assign (firstn i o) th (val s)) n) v = gchk_out g n (inputs_at g (assign o th base) n) v).
  { intros i n v Hij Hn. destruct (Hs i n Hn) as [Any|First]; [apply Any|]. f_equal. unfold inputs_at. apply map_ext_in. intros [m q] Hm. cbn [fst snd].
    assert (EQ : assign (firstn i o) th (val s) m = assign o th base m); [|rewrite EQ; reflexivity].
    destruct (in_dec Nat.eq_dec m o) as [Hin|Hno].
    - destruct (in_firstn_nth o i m (First m q Hm Hin)) as (t & Ht2 & Em). assert (Lt : t < length o) by (apply nth_error_Some; congruence).
      rewrite (assign_nth o ND th base t m Em) by lia. apply assign_nth; [|rewrite nth_error_firstn_lt by exact Ht2; exact Em|lia]. apply NoDup_firstn', ND.
    - rewrite (assign_notin o th base m Hno). rewrite assign_notin; [|intros H; apply Hno; rewrite <- (firstn_skipn i o); apply in_or_app; left; exact H].
      destruct (IG n (nth_error_In _ _ Hn)) as (r & Hr & Hnr). apply (Hout r m Hr); [|exact Hno]. right.
      assert (Hpar : In m (gpar g n)) by (unfold gpar; apply in_map_iff; exists (m, q); split; [reflexivity|exact Hm]).
      destruct Hnr as [->|Ha]; [apply anc_par; exact Hpar|]. clear - Ha Hpar. induction Ha as [a n Ha|a p n Hp Ha IH]; [eapply anc_step; [exact Ha|apply anc_par, Hpar]|eapply anc_step; [exact Hp|apply IH, Hpar]]. }
  assert (OUT : forall r n, In r roots -> n = r \/ Anc g n r -> ~ In n o -> val s' n = base n).
  { intros r n Hr Hn Hno. rewrite Hval, assign_notin; [exact (Hout r n Hr Hn Hno)|]. intros H. apply Hno. rewrite <- (firstn_skipn j o). apply in_or_app. left. exact H. }
  destruct b.
  - left. split.
    { intros i n v Hn Hnv. assert (i < length o) by (apply nth_error_Some; congruence). rewrite <- (IN i n v) by (try lia; assumption). apply Hok; [lia|exact Hn|exact Hnv]. }
    exists s', j. split; [exact E|]. split; [exact Q|]. split; [exact Hc'|]. split; [exact Hv'|]. split; [exact Ht|]. intros r n Hr Hn. cbn [built val]. destruct (in_dec Nat.eq_dec n o) as [Hin|Hno]; [|rewrite (assign_notin o th base n Hno); exact (OUT r n Hr Hn Hno)].
    subst j. rewrite Hval, firstn_all. destruct (In_nth_error _ _ Hin) as (t & Et). assert (t < length o) by (apply nth_error_Some; congruence). rewrite (assign_nth o ND th (val s) t n Et), (assign_nth o ND th base t n Et) by lia. reflexivity.
  - right. split.
    { destruct Hb' as (n & v & Hn & Hnv & Hf). intros A. rewrite Hval, (IN j n v) in Hf by (try lia; assumption). rewrite (A j n v Hn Hnv) in Hf. discriminate. }
    exists s', j. split; [exact E|]. split; [exact Q|]. split; [exact Hc'|]. split; [exact Hv'|exact OUT].
Qed.
Lemma dens_fresh th s : Unsampled s -> fits th -> acceptable th -> exists s' q, M_Graph.pdf_of_prior g roots th s = (s', Ok q) /\ dens_of g roots o base th th = Fin q /\ ctr s' = ctr s /\ Stands s' th.
Proof.
  intros U Ht Ha. destruct (set_fresh th s U Ht) as [[_ (s1 & j & E1 & Hr1 & Hs1)]|[N _]]; [|contradiction]. destruct U as (Hc & Hv & _).
  destruct Hg as [Hwf [Hi Hh] Hp Hd Hck Hb Ho]. clear Hg Hs. pose proof Ho as (ls & Hls & _).
  destruct (pdf_exact g Hwf roots th s o ls Hi Hc Hv Ho Hls Ht) as (b' & j' & s1' & s' & q & E1' & E2 & Hval & Hc' & _).
  rewrite E1 in E1'. injection E1' as <- <- <-.
  assert (E3 : tail g roots th s1 = (s', Ok q)) by (unfold M_Graph.pdf_of_prior in E2; unfold bind at 1 in E2; rewrite E1 in E2; exact E2).
  apply (ParamOrder_order g Hwf) in Ho. subst o.
  pose proof (r_tail g roots Hwf th s1 (built (order g roots) base th (ctr s1)) (stands_alike g roots base s1 th Hs1)) as [_ Er].
  assert (Eb : built (order g roots) base th (ctr s1) = with_ctr (built (order g roots) base th 0) (ctr s1)) by reflexivity. rewrite Eb in Er. rewrite (q_pdf_tail g roots th (built (order g roots) base th 0) (ctr s1) : tail g roots th _ = _) in Er.
  rewrite E3 in Er. cbn [snd] in Er. exists s', q. split; [exact E2|]. split.
  { unfold dens_of. destruct (bind (get_mapping g roots) _ _) as [t rt]. cbn [snd] in Er. subst rt. reflexivity. }
  split; [pose proof (quiet_ctr (tail g roots th) s1 (q_pdf_tail g roots th)) as Q; rewrite E3 in Q; cbn [fst] in Q; congruence|].
  destruct Hs1 as (_ & Hv1 & Hf1 & Hb1). split; [exact Hc'|]. split; [intros n v; rewrite Hval; apply Hv1|]. split; [exact Hf1|]. intros r n. rewrite Hval. apply Hb1.
Qed.
(** the run on a graph without parameters ends like the run on any vector, on a graph that stands for its last vector *)
Definition agree {A} (P : A -> Prop) (gr : st * res A) (ve : res (A * Vec * nat)) : Prop :=
  snd gr <> Err OutOfFuel -> match ve with Ok (a, cur', r') => snd gr = Ok a /\ ctr (fst gr) = r' /\ Stands (fst gr) cur' /\ P a | Err e => snd gr = Err e end.
Definition lock {A} (P : A -> Prop) (p : prog A) (r : nat) : Prop := forall s cur, Unsampled s -> ctr s = r -> fits cur -> agree P (on_graph p s) (on_vector p cur r).
Lemma stands_agree {A} (P : A -> Prop) (p : prog A) s cur : careful P p -> Stands s cur -> agree P (on_graph p s) (on_vector p cur (ctr s)).
Proof.
  unfold agree. destruct Hg as [Hwf [Hi Hh] Hp Hd Hck Hb Ho]. apply (ParamOrder_order g Hwf) in Ho. clear Hg Hs. subst o. intros Hc St. exact (refines g roots base tries k Hwf Hi Hh Hp Hd Hck Hb P p Hc s cur St).
Qed.
Lemma graph_bind {A B} (p : prog A) (f : A -> prog B) : forall s, on_graph (pbind p f) s = match on_graph p s with (s', Ok a) => on_graph (f a) s' | (s', Err e) => (s', Err e) end.
Proof.
  induction p as [[a|e]|c IH|c IH|th c IH|th c IH|c IH|X h c IH]; intros s; cbn [pbind M_Worker.on_graph]; try reflexivity; unfold bind.
  - destruct (sample_from_prior g roots tries s) as [s' [x|e]]; [apply IH|reflexivity].
  - destruct (get_parameters g roots s) as [s' [x|e]]; [apply IH|reflexivity].
  - destruct (set_parameters g roots th s) as [s' [x|e]]; [apply IH|reflexivity].
  - destruct (M_Graph.pdf_of_prior g roots th s) as [s' [x|e]]; [apply IH|reflexivity].
  - destruct (simulate g (depth roots) roots k s) as [s' [x|e]]; [apply IH|reflexivity].
  - destruct (h (ctr s)) as [[r x]|e]; [apply IH|reflexivity].
Qed.
Lemma lock_bind {A B} (P : A -> Prop) (Q : B -> Prop) (p : prog A) (f : A -> prog B) r : lock P p r -> (forall a, P a -> careful Q (f a)) -> lock Q (pbind p f) r.
Proof.
  intros Hp Hf s cur U Er Hc N. specialize (Hp s cur U Er Hc). rewrite graph_bind in N |- *. rewrite vector_bind. destruct (on_graph p s) as [s' [a|e]]; cbn [snd fst] in *.
  - assert (M : Ok a <> Err OutOfFuel) by discriminate. specialize (Hp M). cbn [snd fst] in Hp. destruct (on_vector p cur r) as [[[a' c'] r']|e]; [|discriminate]. destruct Hp as (Ea & Ec & St & HP). injection Ea as <-.
    rewrite <- Ec. apply (stands_agree Q (f a) s' c' (Hf a HP) St), N.
  - assert (M : @Err A e <> Err OutOfFuel) by (intros X; apply N; injection X as ->; reflexivity). specialize (Hp M). cbn [snd fst] in Hp. destruct (on_vector p cur r) as [[[a' c'] r']|e']; [destruct Hp; discriminate|]. injection Hp as ->. reflexivity.
Qed.
Lemma lock_err {A} (P : A -> Prop) e r : lock P (Done (Err e)) r.
Proof. intros s cur _ _ _ _. reflexivity. Qed.
Lemma lock_prior {A} (P : A -> Prop) (c : prog A) r : careful P c -> lock P (Prior c) r.
Proof.
  intros Hc s cur (U1 & U2 & U3) <- _. unfold agree. destruct Hg as [Hwf [Hi Hh] Hp Hd Hck Hb Ho]. apply (ParamOrder_order g Hwf) in Ho. clear Hg Hs. subst o.
  refine (refines_prior g roots base tries k Hwf Hi Hh Hp Hd Hck Hb P c Hc s cur _). split; [exact U1|]. split; [exact U2|]. intros n (r & Hr & Hn) Hno. exact (U3 r n Hr Hn Hno).
Qed.
Lemma unsampled_ctr s r : Unsampled s -> Unsampled (with_ctr s r).
Proof. intros (U1 & U2 & U3). split; [exact U1|]. split; [exact U2|exact U3]. Qed.
Lemma lock_rand {A X} (P : A -> Prop) (f : nat -> res (nat * X)) (c : X -> prog A) r : (forall r' x, f r = Ok (r', x) -> lock P (c x) r') -> lock P (Rand f c) r.
Proof.
  intros H s cur U <- Hc. cbn [M_Worker.on_graph M_Worker.on_vector]. destruct (f (ctr s)) as [[r' x]|e] eqn:E; [|intros _; reflexivity]. apply (H r' x eq_refl); [apply unsampled_ctr, U|reflexivity|exact Hc].
Qed.
Lemma lock_put {A} (P : A -> Prop) th (c : bool -> prog A) r : fits th -> acceptable th -> careful P (c true) -> lock P (Put th c) r.
Proof.
  intros Ht Ha Hca s cur U <- Hc. cbn [M_Worker.on_graph M_Worker.on_vector]. destruct (set_verdict g roots o base Hg Hs th cur Ht Hc) as [[_ V]|[N _]]; [|contradiction]. rewrite V.
  destruct (set_fresh th s U Ht) as [[_ (s' & j & E & Er & St)]|[N _]]; [|contradiction]. unfold bind. rewrite E. cbn [fst]. rewrite <- Er. apply stands_agree; assumption.
Qed.
Lemma lock_dens {A} (P : A -> Prop) th (c : num -> prog A) r : fits th -> acceptable th -> (forall v, careful P (c v)) -> lock P (Dens th c) r.
Proof.
  intros Ht Ha Hca s cur U <- Hc. cbn [M_Worker.on_graph M_Worker.on_vector]. unfold M_Infer.pdf_of_prior. destruct (set_verdict g roots o base Hg Hs th cur Ht Hc) as [[_ V]|[N _]]; [|contradiction]. rewrite V. cbn [snd].
  destruct (dens_fresh th s U Ht Ha) as (s' & q & E & Ed & Er & St). unfold bind. rewrite E, Ed, <- Er. apply stands_agree; [apply Hca|exact St].
Qed.
Lemma lock_get {A} (P : A -> Prop) (c : Vec -> prog A) p r : (forall th, c th = p) -> lock P p r -> lock P (Get c) r.
Proof.
  intros Hc Hp s cur U <- Hcur. cbn [M_Worker.on_graph M_Worker.on_vector]. rewrite Hc. unfold bind. assert (Hwf : wf g) by apply Hg. destruct U as (U1 & U2 & U3).
  destruct (get_parameters_spec g Hwf roots s U1) as (s' & E & (Hc' & _ & Hr & _) & Hval). rewrite E, Hc. apply Hp; [|exact Hr|exact Hcur].
  split; [exact Hc'|]. split; [intros n v; rewrite Hval; apply U2|]. intros r n. rewrite Hval. apply U3.
Qed.

Lemma some_fits : exists cur, fits cur.
Proof. exists (map (fun n => repeat 0%Q (gdim g n)) o). unfold S_Worker.fits. clear. induction o as [|n l IH]; cbn; constructor; [apply repeat_length|exact IH]. Qed.
Lemma careful_split {A B} (Q : B -> Prop) (p : prog A) (f : A -> prog B) : careful Q (pbind p f) -> careful (fun a => careful Q (f a)) p.
Proof.
  induction p as [[a|e]|c IH|c IH|th c IH|th c IH|c IH|X h c IH]; cbn [pbind S_Worker.careful]; intros H; auto.
  - destruct H as [H1 H2]. split; [exact H1|]. intros b. apply IH, H2.
  - destruct H as [H1 H2]. split; [exact H1|]. intros b. apply IH, H2.
  - intros r r' x E. apply IH, (H r r' x E).
Qed.
(** ** the programs that store parameters before they read them *)
Definition opens {A} (p : prog A) (r : nat) : Prop := forall Q, careful Q p -> lock Q p r.
Lemma opens_err {A} e r : opens (@Done A (Err e)) r.
Proof. intros Q _. apply lock_err. Qed.
Lemma opens_prior {A} (c : prog A) r : opens (Prior c) r.
Proof. intros Q H. apply lock_prior, H. Qed.
Lemma opens_rand {A X} (f : nat -> res (nat * X)) (c : X -> prog A) r : (forall r' x, f r = Ok (r', x) -> opens (c x) r') -> opens (Rand f c) r.
Proof. intros H Q Hc. apply lock_rand. intros r' x E. apply H; [exact E|]. exact (Hc r r' x E). Qed.
Lemma opens_put {A} th (c : bool -> prog A) r : fits th -> acceptable th -> opens (Put th c) r.
Proof. intros Ht Ha Q [_ Hc]. apply lock_put; [exact Ht|exact Ha|apply Hc]. Qed.
Lemma opens_dens {A} th (c : num -> prog A) r : fits th -> acceptable th -> opens (Dens th c) r.
Proof. intros Ht Ha Q [_ Hc]. apply lock_dens; assumption. Qed.
Lemma opens_get {A} (c : Vec -> prog A) p r : (forall th, c th = p) -> opens p r -> opens (Get c) r.
Proof. intros Hc Hp Q H. destruct some_fits as (cur & Hcur). apply (lock_get Q c p r Hc), Hp. rewrite <- (Hc cur). exact (H cur Hcur). Qed.
Lemma opens_bind {A B} (p : prog A) (f : A -> prog B) r : opens p r -> opens (pbind p f) r.
Proof. intros Hp Q H. apply (lock_bind (fun a => careful Q (f a))); [apply Hp, careful_split, H|auto]. Qed.
Section Kernel.
Variable Pop : Type.
Variable kupd : Pop -> nat -> nat -> nat * Vec.
Hypothesis Hk : forall p i r, fits (snd (kupd p i r)).
Hypothesis Hh : hits_home g o base kupd.
Lemma opens_perturb_loop p i : forall left epoch last r, (exists t, t < left /\ acceptable (draw_after kupd p i t r)) -> opens (w_perturb_loop Pop kupd p i left epoch last) r.
Proof.
  induction left as [|left IH]; intros epoch last r (t & Ht & Ha); [lia|]. cbn [w_perturb_loop].
  destruct (kupd p i r) as [r1 th] eqn:E. assert (Hth : fits th) by (specialize (Hk p i r); rewrite E in Hk; exact Hk).
  apply opens_rand. intros r' x Ex. rewrite E in Ex. injection Ex as <- <-.
  assert (D : acceptable th \/ ~ acceptable th).
  { destruct (set_verdict g roots o base Hg Hs th th Hth Hth) as [[A _]|[A _]]; [left|right]; exact A. }
  destruct D as [A|N]; [apply opens_put; [exact Hth|exact A]|].
  destruct t as [|t]; [cbn [draw_after] in Ha; rewrite E in Ha; contradiction|]. cbn [draw_after] in Ha. rewrite E in Ha. cbn [fst] in Ha.
  intros Q [_ Hca]. assert (L : lock Q (w_perturb_loop Pop kupd p i left (S epoch) (Some th)) r1) by (apply IH; [exists t; split; [lia|exact Ha]|exact (Hca false)]).
  intros s cur U Er Hc. cbn [M_Worker.on_graph M_Worker.on_vector].
  pose proof (set_fits g roots o base Hg th cur Hth Hc) as Hf. destruct (set_verdict g roots o base Hg Hs th cur Hth Hc) as [[A _]|[_ E2]]; [contradiction|]. destruct (set_of g roots o base th cur) as [b c]. cbn [fst snd] in *. subst b.
  destruct (set_fresh th s U Hth) as [[A _]|[_ (s' & j & Es & Er' & U')]]; [contradiction|]. unfold bind. rewrite Es. cbn [fst]. apply L; [exact U'|congruence|exact Hf].
Qed.
Lemma opens_propose p i fuel r : opens (w_propose Pop kupd fuel p i) r.
Proof. destruct fuel as [|f]; cbn [w_propose]; [apply opens_err|]. apply opens_bind. unfold w_perturb. apply opens_bind, opens_perturb_loop, Hh. Qed.
End Kernel.

(** ** the map *)
(** a program that, on a graph without parameters, ends like on a vector, and leaves the graph standing for something or without parameters *)
Definition fine {A} (p : prog A) : Prop := forall s cur, Unsampled s -> fits cur -> snd (on_graph p s) <> Err OutOfFuel ->
  snd (on_graph p s) = forget (on_vector p cur (ctr s)) /\ (forall y, snd (on_graph p s) = Ok y -> Any g roots o base (fst (on_graph p s))).
Lemma lock_fine {A} (P : A -> Prop) (p : prog A) : (forall r, lock P p r) -> fine p.
Proof.
  intros H s cur U Hc N. specialize (H (ctr s) s cur U eq_refl Hc N). destruct (on_vector p cur (ctr s)) as [[[a c] r]|e]; cbn [forget].
  - destruct H as (E & _ & St & _). split; [exact E|]. intros y _. left. exists c. exact St.
  - split; [exact H|]. intros y E. congruence.
Qed.
Lemma opens_fine {A} (P : A -> Prop) (p : prog A) : careful P p -> (forall r, opens p r) -> fine p.
Proof. intros Hc H. apply (lock_fine P). intros r. apply H, Hc. Qed.
Lemma done_fine {A} (x : res A) : fine (Done x).
Proof. intros s cur U Hc N. cbn [M_Worker.on_graph M_Worker.on_vector lift snd fst]. split; [destruct x; reflexivity|]. intros y _. right. destruct x; exact U. Qed.
Lemma any_used {A B} (f : A -> prog B) (P : B -> Prop) (R : A -> Prop) : (forall a, R a -> careful P (f a)) -> (forall a, R a -> Free g roots o base tries k (f a)) -> (forall a, R a -> fine (f a)) -> Location_free g roots tries k (Any g roots o base) R f.
Proof.
  intros Hc Hf Hl. apply location_free. intros a Ha. destruct (Hf a Ha) as (z & Hz). exists z. intros s s' x [(cur & S)|U] E Hx.
  - pose proof (Hz cur (ctr s) (proj1 (proj2 (proj2 S)))) as V. pose proof (stands_agree P (f a) s cur (Hc a Ha) S) as W. rewrite E in W. specialize (W Hx). cbn [fst snd] in W.
    destruct (on_vector (f a) cur (ctr s)) as [[[b c] r']|e]; cbn [forget] in V.
    + destruct W as (-> & _ & St & _). split; [exact V|]. intros y _. left. exists c. exact St.
    + subst x. split; [exact V|]. discriminate.
  - destruct some_fits as (cur & Hcur). pose proof (Hl a Ha s cur U Hcur) as L. rewrite E in L. cbn [fst snd] in L. destruct (L Hx) as [L1 L2]. split; [rewrite L1; apply Hz, Hcur|exact L2].
Qed.

(** ** the workers *)
Section Pop.
Variable kupd : pop Vec -> nat -> nat -> nat * Vec.
Variable kupdL : pop Vec -> Vec -> nat -> nat * Vec.
Variable kpdf : pop Vec -> Vec -> Vec -> num.
Variable dist : Data -> num.
Variable dist1 : Data -> list num.
Variable dist_max : num.
Variable mkrng : Z -> nat.
Variable reseed : nat -> nat.
Variable choice : nat -> list num -> nat -> res (nat * nat).
Variable choiceU : nat -> nat -> res (nat * nat).
Variable choiceL : list nat -> nat -> res (nat * nat).
Variable bern : num -> nat -> res (nat * bool).
Variable rand : nat -> nat * num.
Variable nexp : num -> num.
Hypothesis Hk : forall p i r, fits (snd (kupd p i r)).
Hypothesis Hh : hits_home g o base kupd.
Lemma o_propose p i fuel r : opens (w_propose (pop Vec) kupd fuel p i) r.
Proof. apply (opens_propose (pop Vec) kupd Hk Hh). Qed.
Lemma o_resample eps n mgr fuel seed r : nlt eps dist_max = true -> opens (w_resample kupd dist dist_max mkrng reseed choice eps n mgr fuel seed) r.
Proof.
  intros He. apply opens_rand. intros r' u _. apply (opens_get _ (w_resample_loop kupd dist choice eps n mgr fuel [] dist_max 0)).
  - intros th. destruct fuel as [|f]; cbn [w_resample_loop]; rewrite He; reflexivity.
  - destruct fuel as [|f]; cbn [w_resample_loop]; rewrite He; [apply opens_err|]. destruct mgr as [p|]; [|apply opens_prior]. apply opens_rand. intros q i _. apply opens_bind, o_propose.
Qed.
Lemma o_rsmcabc eps R mgr dists fuel seed r : nlt eps dist_max = true -> (0 < R)%Z -> opens (w_rsmcabc kupd kpdf dist dist_max mkrng reseed choiceU bern eps R mgr dists fuel seed) r.
Proof.
  intros He HR. apply opens_rand. intros r0 u _. destruct mgr as [p|].
  - apply opens_rand. intros r' i _. destruct (nth_error (p_rows p) i) as [theta|]; [|apply opens_err]. destruct (Z.to_nat R) as [|K] eqn:EK; [lia|]. cbn [w_rs_moves]. apply opens_bind, o_propose.
  - destruct fuel as [|f]; cbn [w_rs_prior]; rewrite He; [apply opens_err|apply opens_prior].
Qed.
Lemma o_apmcabc mgr fuel seed r : opens (w_apmcabc kupd kpdf dist mkrng reseed choice mgr fuel seed) r.
Proof.
  apply opens_rand. intros r0 u _. destruct mgr as [p|]; [|apply opens_prior]. apply opens_rand. intros r' i _. apply opens_bind, o_propose.
Qed.
Lemma o_keep ys idx counter theta r : fits theta -> acceptable theta -> opens (w_keep ys idx counter theta) r.
Proof. intros Ht Ha. unfold w_keep. destruct ys as [ys|]; [|apply opens_err]. destruct (nth_error ys idx) as [y|]; [|apply opens_err]. apply opens_put; assumption. Qed.
Lemma o_smcabc kernel hits eps mgr ys fuel si r : (forall p th, mgr = Some p -> In th (p_rows p) -> fits th /\ acceptable th) -> opens (w_smcabc kupd kupdL kpdf dist dist1 mkrng reseed choiceL bern kernel hits eps mgr ys fuel si) r.
Proof.
  intros Hm. apply opens_rand. intros r0 u _. apply opens_bind. destruct mgr as [p|]; [|apply opens_prior].
  destruct (nth_error (p_w p) (snd si)) as [w|]; [|apply opens_err]. destruct (nth_error (p_rows p) (snd si)) as [theta|] eqn:N; [|apply opens_err]. destruct (Hm p theta eq_refl (nth_error_In _ _ N)) as [Ht Ha].
  destruct (nlt (Fin 0) w); [|apply o_keep; assumption]. destruct kernel as [|[|kernel]].
  - apply opens_bind, o_propose.
  - apply opens_put; assumption.
  - unfold w_move2. destruct hits as [|hits].
    + destruct fuel; cbn [w_until pbind]; apply opens_rand; intros r' [|L] _; apply opens_err.
    + apply opens_bind. destruct fuel as [|f]; cbn [w_until]; [apply opens_err|]. apply opens_bind. unfold w_pert_sim. apply opens_bind, o_propose.
Qed.
Lemma o_sabc n eps mgr all_d sm fuel seed r : opens (w_sabc kupd dist mkrng reseed choiceU bern rand nexp n eps mgr all_d sm fuel seed) r.
Proof.
  apply opens_rand. intros r0 u _. destruct mgr as [p|].
  - apply opens_rand. intros r' i _. destruct (nth_error (p_rows p) i) as [theta|]; [|apply opens_err]. apply opens_bind, o_propose.
  - destruct fuel as [|f]; cbn [w_sa_prior]; [apply opens_err|apply opens_prior].
Qed.
End Pop.
Section Subsim.
Variable Cov : Type.
Variable kupd : kst Vec Cov -> nat -> nat -> nat * Vec.
Variable kpdf : kst Vec Cov -> Vec -> Vec -> num.
Variable dist : Data -> num.
Variable mkrng : Z -> nat.
Variable reseed : nat -> nat.
Variable bern : num -> nat -> res (nat * bool).
Hypothesis Hk : forall p i r, fits (snd (kupd p i r)).
Hypothesis Hh : hits_home g o base kupd.
Lemma o_subsim cl ann bds p fuel si r : (forall rows th, bds = Some rows -> In th rows -> fits th /\ acceptable th) -> opens (w_subsim Cov kupd kpdf dist mkrng reseed bern cl ann bds p fuel si) r.
Proof.
  intros Hb. apply opens_rand. intros r0 u _. destruct bds as [rows|]; [|apply opens_prior].
  destruct (nth_error rows (snd si)) as [theta|] eqn:N; [|apply opens_err]. destruct (Hb rows theta eq_refl (nth_error_In _ _ N)) as [Ht Ha]. apply opens_put; assumption.
Qed.
Lemma fine_cov_try cl ann bds p fuel seed : Forall fits bds -> fine (w_cov_try Cov kupd kpdf dist mkrng reseed bern cl ann bds p fuel seed).
Proof.
  intros Hb. destruct bds as [|theta bds]; [apply done_fine|]. destruct cl as [|cl].
  - intros s cur U Hc N. unfold w_cov_try, w_seed. cbn [w_chain pbind M_Worker.on_graph M_Worker.on_vector lift snd fst length filter forget]. split; [reflexivity|]. intros y _. right. apply unsampled_ctr, U.
  - apply (opens_fine (fun _ => True)); [apply c_cov_try; assumption|]. intros r. unfold w_cov_try. apply opens_rand. intros r0 u _. cbn [w_chain]. apply opens_bind, opens_bind, (opens_propose _ kupd Hk Hh).
Qed.
End Subsim.
Lemma o_log_lik loglik mkrng th seed r : fits th -> acceptable th -> opens (w_log_lik loglik mkrng th seed) r.
Proof. intros Ht Ha. apply opens_rand. intros r0 u _. apply opens_put; assumption. Qed.
End Fresh.
