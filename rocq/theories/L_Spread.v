(** Proofs for C96. *)
From Coq Require Import Reals.
From Verif Require Import M_Base M_Num M_XReal M_Infer M_PMCABC M_RSMCABC M_SMCABC M_SABC M_Subsim M_PMC M_Graph S_Graph L_Graph L_Graph2 L_Graph3 L_Graph4 M_Worker S_Worker L_Worker M_Worker2 L_Worker2 S_Spread.
Open Scope nat_scope.

Section Verdict.
Variables (g : graph) (roots o : list nat) (base : nat -> option (list Q)) (tries k : nat).
Hypothesis Hg : ordinary g roots o base.
Hypothesis Hs : steady g o.
Notation setp := (set_of g roots o base).
Notation fits := (fits g o).
Notation acceptable := (acceptable g o base).
Lemma set_fits th cur : fits th -> fits cur -> fits (snd (setp th cur)).
Proof.
  destruct Hg as [Hwf [Hi Hh] Hp Hd Hc Hb Ho]. apply (ParamOrder_order g Hwf) in Ho. clear Hg Hs. subst o. intros Ht Hcur.
  destruct (set_step g roots base Hwf Hi th (built (order g roots) base cur 0) cur (built_ok g roots base Hb cur 0 Hcur) Ht) as (s' & j & _ & _ & H). apply H.
Qed.
Lemma in_firstn_nth {X} (l : list X) i x : In x (firstn i l) -> exists j, j < i /\ nth_error l j = Some x.
Proof.
  revert l. induction i as [|i IH]; intros [|y l] H; cbn in H; try contradiction. destruct H as [->|H]; [exists 0; split; [lia|reflexivity]|]. destruct (IH l H) as (j & Hj & E). exists (S j). split; [lia|exact E].
Qed.
Lemma set_verdict th cur : fits th -> fits cur -> (acceptable th /\ setp th cur = (true, th)) \/ (~ acceptable th /\ fst (setp th cur) = false).
Proof.
  destruct Hg as [Hwf [Hi Hh] Hp Hd Hc Hb Ho]. pose proof (ParamOrder_order g Hwf roots o) as PO. apply PO in Ho. clear PO. clear Hg. pose proof (order_NoDup g roots) as ND. rewrite <- Ho in ND. intros Ht Hcur.
  assert (Hl : length o = length th) by (clear - Ht; induction Ht; cbn; lia).
  assert (Hl2 : length o = length cur) by (clear - Hcur; induction Hcur; cbn; lia).
  set (s := built o base cur 0).
  assert (St : Stands g roots o base s cur) by (clear - Hwf Hb Ho Hcur; unfold s; subst o; apply built_ok; [exact Hb|exact Hcur]).
  destruct St as (Hcl & Hv & _ & _).
  destruct (set_parameters_spec g Hwf roots th s Hi Hcl Hv) as (b & j & s' & E & Hj & Hval & Hv' & Hc' & Hok & Hb').
  { rewrite <- Ho. intros i n Hn. clear - Ht Hn. revert i Hn. induction Ht as [|a w os ths H1 H2 IH]; intros [|i] Hn; cbn in *; try discriminate; [injection Hn as <-; eauto|eauto]. }
  rewrite <- Ho in Hj, Hval, Hok, Hb'.
  (* the inputs seen by the check at position i *)
  assert (IN : forall i n v, i <= j -> nth_error o i = Some n -> gchk_out g n (inputs_at g (assign (firstn i o) th (val s)) n) v = gchk_out g n (inputs_at g (assign o th base) n) v).
  { intros i n v Hij Hn. destruct (Hs i n Hn) as [Any|First]; [apply Any|]. f_equal. unfold inputs_at. apply map_ext_in. intros [m q] Hm. cbn [fst snd].
    assert (EQ : assign (firstn i o) th (val s) m = assign o th base m); [|rewrite EQ; reflexivity].
    destruct (in_dec Nat.eq_dec m o) as [Hin|Hout].
    - destruct (in_firstn_nth o i m (First m q Hm Hin)) as (t & Ht2 & Em). assert (Lt : t < length o) by (apply nth_error_Some; congruence).
      rewrite (assign_nth o ND th base t m Em) by lia. apply assign_nth; [|rewrite nth_error_firstn_lt by exact Ht2; exact Em|lia]. apply NoDup_firstn', ND.
    - rewrite (assign_notin o th base m Hout). rewrite assign_notin; [unfold s; cbn [built val]; apply assign_notin, Hout|]. intros H. apply Hout. rewrite <- (firstn_skipn i o). apply in_or_app. left. exact H. }
  unfold set_of. fold s. rewrite E. destruct b.
  - left. assert (A : acceptable th).
    { intros i n v Hn Hnv. assert (i < length o) by (apply nth_error_Some; congruence). rewrite <- (IN i n v) by (try lia; assumption). apply Hok; [lia|exact Hn|exact Hnv]. }
    split; [exact A|]. f_equal. unfold stored. subst j. rewrite firstn_all in Hval. pose proof (assign_get o ND th (val s)) as G. rewrite <- Hval in G. assert (G' : map (val s') o = map Some th) by (rewrite G by lia; rewrite Hl, firstn_all; reflexivity).
    rewrite <- (map_map (val s') known), G', map_map. cbn [known]. apply map_id.
  - right. split; [|reflexivity]. destruct Hb' as (n & v & Hn & Hnv & Hf). intros A. rewrite Hval, (IN j n v) in Hf by (try lia; assumption). rewrite (A j n v Hn Hnv) in Hf. discriminate.
Qed.
End Verdict.

Section Free.
Variables (g : graph) (roots o : list nat) (base : nat -> option (list Q)) (tries k : nat).
Hypothesis Hg : ordinary g roots o base.
Hypothesis Hs : steady g o.
Notation setp := (set_of g roots o base).
Notation on_vector := (on_vector setp (dens_of g roots o base) (prior_of g roots o base tries) (sim_of g roots o base k)).
Notation on_graph := (on_graph g roots tries k).
Notation fits := (fits g o).
Notation acceptable := (acceptable g o base).
Definition forget {A} (x : res (A * Vec * nat)) : res A := match x with Ok (a, _, _) => Ok a | Err e => Err e end.
Definition det {A} (p : prog A) (r : nat) : Prop := exists x, forall cur, fits cur -> on_vector p cur r = x.
Definition free {A} (p : prog A) (r : nat) : Prop := exists x, forall cur, fits cur -> forget (on_vector p cur r) = x.
Definition Free {A} (p : prog A) : Prop := exists x, forall cur r, fits cur -> forget (on_vector p cur r) = x.
Lemma det_free {A} (p : prog A) r : det p r -> free p r.
Proof. intros (x & H). exists (forget x). intros cur Hc. rewrite (H cur Hc). reflexivity. Qed.
Lemma det_bind {A B} (p : prog A) (f : A -> prog B) r : det p r -> det (pbind p f) r.
Proof. intros (x & H). exists (match x with Err e => Err e | Ok (a, c, r') => on_vector (f a) c r' end). intros cur Hc. rewrite vector_bind, (H cur Hc). reflexivity. Qed.
Lemma det_err {A} e r : det (@Done A (Err e)) r.
Proof. exists (Err e). reflexivity. Qed.
Lemma det_prior {A} (c : prog A) r : det (Prior c) r.
Proof. exists (on_vector (Prior c) [] r). intros cur _. reflexivity. Qed.
Lemma det_rand {A X} (f : nat -> res (nat * X)) (c : X -> prog A) r : (forall r' x, f r = Ok (r', x) -> det (c x) r') -> det (Rand f c) r.
Proof.
  intros H. destruct (f r) as [[r' x]|e] eqn:E.
  - destruct (H r' x eq_refl) as (z & Hz). exists z. intros cur Hc. cbn [M_Worker.on_vector]. rewrite E. apply Hz, Hc.
  - exists (Err e). intros cur _. cbn [M_Worker.on_vector]. rewrite E. reflexivity.
Qed.
Lemma det_put {A} th (c : bool -> prog A) r : fits th -> acceptable th -> det (Put th c) r.
Proof.
  intros Ht Ha. exists (on_vector (c true) th r). intros cur Hc. cbn [M_Worker.on_vector]. destruct (set_verdict g roots o base Hg Hs th cur Ht Hc) as [[_ E]|[N _]]; [|contradiction]. rewrite E. reflexivity.
Qed.
Lemma det_dens {A} th (c : num -> prog A) r : fits th -> acceptable th -> det (Dens th c) r.
Proof.
  intros Ht Ha. exists (on_vector (c (dens_of g roots o base th th)) th r). intros cur Hc. cbn [M_Worker.on_vector]. unfold M_Infer.pdf_of_prior. destruct (set_verdict g roots o base Hg Hs th cur Ht Hc) as [[_ E]|[N _]]; [|contradiction]. rewrite E. reflexivity.
Qed.
Lemma seed_free {A} (f : nat -> res (nat * unit)) r0 (c : prog A) : (forall r, f r = Ok (r0, tt)) -> free c r0 -> Free (Rand f (fun _ => c)).
Proof. intros Hf (x & H). exists x. intros cur r Hc. cbn [M_Worker.on_vector]. rewrite Hf. apply H, Hc. Qed.

Section Kernel.
Variable Pop : Type.
Variable kupd : Pop -> nat -> nat -> nat * Vec.
Hypothesis Hk : forall p i r, fits (snd (kupd p i r)).
Hypothesis Hh : hits_home g o base kupd.
Lemma det_perturb_loop p i : forall left epoch last r, (exists t, t < left /\ acceptable (draw_after kupd p i t r)) -> det (w_perturb_loop Pop kupd p i left epoch last) r.
Proof.
  induction left as [|left IH]; intros epoch last r (t & Ht & Ha); [lia|]. cbn [w_perturb_loop].
  destruct (kupd p i r) as [r1 th] eqn:E. assert (Hth : fits th) by (specialize (Hk p i r); rewrite E in Hk; exact Hk).
  apply det_rand. intros r' x Ex. rewrite E in Ex. injection Ex as <- <-.
  assert (D : acceptable th \/ ~ acceptable th).
  { destruct (set_verdict g roots o base Hg Hs th th Hth Hth) as [[A _]|[A _]]; [left|right]; exact A. }
  destruct D as [A|N]; [apply det_put; assumption|].
  destruct t as [|t]; [cbn [draw_after] in Ha; rewrite E in Ha; contradiction|]. cbn [draw_after] in Ha. rewrite E in Ha. cbn [fst] in Ha.
  destruct (IH (S epoch) (Some th) r1) as (z & Hz); [exists t; split; [lia|exact Ha]|]. exists z. intros cur Hc. cbn [M_Worker.on_vector].
  pose proof (set_fits g roots o base Hg th cur Hth Hc) as Hf. destruct (set_verdict g roots o base Hg Hs th cur Hth Hc) as [[A _]|[_ E2]]; [contradiction|]. destruct (setp th cur) as [b c]. cbn [fst snd] in *. subst b. apply Hz, Hf.
Qed.
Lemma det_propose p i fuel r : det (w_propose Pop kupd fuel p i) r.
Proof. destruct fuel as [|f]; cbn [w_propose]; [apply det_err|]. apply det_bind. unfold w_perturb. apply det_bind, det_perturb_loop, Hh. Qed.
End Kernel.

(** ** the map *)
Section Map.
Variables A B : Type.
Variable f : A -> prog B.
Variable Ready : st -> Prop.
Variable R : A -> Prop.
Hypothesis Hitem : forall a, R a -> exists x, forall s s' x', Ready s -> on_graph (f a) s = (s', x') -> x' <> Err OutOfFuel -> x' = x /\ (forall y, x' = Ok y -> Ready s').
Definition alone (a : A) (x : res B) : Prop := forall s s' x', Ready s -> on_graph (f a) s = (s', x') -> x' <> Err OutOfFuel -> x' = x.
Lemma item s s' x a : R a -> Ready s -> on_graph (f a) s = (s', x) -> x <> Err OutOfFuel -> alone a x /\ (forall y, x = Ok y -> Ready s').
Proof.
  intros Ha Hr E Hx. destruct (Hitem a Ha) as (z & Hz). destruct (Hz _ _ _ Hr E Hx) as [-> H2]. split; [|exact H2]. intros t t' x' Ht E' Hx'. apply (Hz _ _ _ Ht E' Hx').
Qed.
Lemma upd_ready (graphs : nat -> st) q s' : (forall q, Ready (graphs q)) -> Ready s' -> forall q', Ready (upd graphs q s' q').
Proof. intros H1 H2 q'. unfold upd. destruct (Nat.eqb q' q); [exact H2|apply H1]. Qed.
Lemma spread_items : forall plan graphs ys, Forall (fun x => R (snd x)) plan -> (forall q, Ready (graphs q)) ->
  spread g roots tries k f plan graphs = Ok ys -> Forall2 (fun x y => alone (snd x) (Ok y) /\ exists s s', Ready s /\ on_graph (f (snd x)) s = (s', Ok y)) plan ys.
Proof.
  induction plan as [|[q a] plan IH]; intros graphs ys HR Hst E; cbn [spread] in E; [injection E as <-; constructor|].
  destruct (on_graph (f a) (graphs q)) as [s' [y|e]] eqn:G; [|discriminate]. destruct (item _ _ _ _ (Forall_inv HR) (Hst q) G) as [I1 I2]; [discriminate|].
  destruct (spread g roots tries k f plan (upd graphs q s')) as [zs|] eqn:E2; [|discriminate]. injection E as <-. constructor; [split; [exact I1|exists (graphs q), s'; split; [apply Hst|exact G]]|]. apply (IH (upd graphs q s')); [exact (Forall_inv_tail HR)| |exact E2]. apply upd_ready; [exact Hst|]. apply (I2 y). reflexivity.
Qed.
Lemma spread_same : forall plan1 plan2 graphs1 graphs2, Forall (fun x => R (snd x)) plan1 -> (forall q, Ready (graphs1 q)) -> (forall q, Ready (graphs2 q)) ->
  spread g roots tries k f plan1 graphs1 <> Err OutOfFuel -> spread g roots tries k f plan2 graphs2 <> Err OutOfFuel -> map snd plan1 = map snd plan2 ->
  spread g roots tries k f plan1 graphs1 = spread g roots tries k f plan2 graphs2.
Proof.
  induction plan1 as [|[q1 a] plan1 IH]; intros [|[q2 a2] plan2] graphs1 graphs2 HR S1 S2 N1 N2 Em; try discriminate; [reflexivity|]. cbn [map snd] in Em. injection Em as <- Em. cbn [spread] in *.
  destruct (on_graph (f a) (graphs1 q1)) as [s1 x1] eqn:G1, (on_graph (f a) (graphs2 q2)) as [s2 x2] eqn:G2.
  assert (M1 : x1 <> Err OutOfFuel) by (intros ->; apply N1; reflexivity). assert (M2 : x2 <> Err OutOfFuel) by (intros ->; apply N2; reflexivity).
  destruct (item _ _ _ _ (Forall_inv HR) (S1 q1) G1 M1) as [I1 J1]. destruct (item _ _ _ _ (Forall_inv HR) (S2 q2) G2 M2) as [I2 J2].
  pose proof (I2 _ _ _ (S1 q1) G1 M1) as Ex. subst x2. destruct x1 as [y|e]; [|reflexivity].
  rewrite (IH plan2 (upd graphs1 q1 s1) (upd graphs2 q2 s2)); [reflexivity|exact (Forall_inv_tail HR)|apply upd_ready; [exact S1|exact (J1 y eq_refl)]|apply upd_ready; [exact S2|exact (J2 y eq_refl)]| | |exact Em].
  - intros E. apply N1. rewrite E. reflexivity.
  - intros E. apply N2. rewrite E. reflexivity.
Qed.
Lemma Forall2_nth {X Y} (Q : X -> Y -> Prop) l l' i x y : Forall2 Q l l' -> nth_error l i = Some x -> nth_error l' i = Some y -> Q x y.
Proof. intros H. revert i. induction H; intros [|i] E1 E2; cbn in *; try discriminate; [congruence|eauto]. Qed.
Lemma Forall2_nth_some {X Y} (Q : X -> Y -> Prop) l l' i x : Forall2 Q l l' -> nth_error l i = Some x -> exists y, nth_error l' i = Some y.
Proof. intros H. revert i. induction H; intros [|i] E1; cbn in *; try discriminate; eauto. Qed.
Lemma location_free : Location_free g roots tries k Ready R f.
Proof.
  intros plan1 plan2 graphs1 graphs2 R1 R2 S1 S2 N1 N2. split; [|intros Em; apply spread_same; assumption].
  intros ys1 ys2 E1 E2 i j q1 q2 a Hi Hj. pose proof (spread_items _ _ _ R1 S1 E1) as F1. pose proof (spread_items _ _ _ R2 S2 E2) as F2.
  destruct (Forall2_nth_some _ _ _ _ _ F1 Hi) as (y1 & Y1), (Forall2_nth_some _ _ _ _ _ F2 Hj) as (y2 & Y2). rewrite Y1, Y2.
  pose proof (Forall2_nth _ _ _ _ _ _ F1 Hi Y1) as A1. pose proof (Forall2_nth _ _ _ _ _ _ F2 Hj Y2) as A2. cbn [snd] in A1, A2. destruct A1 as [_ (s & s' & Hr & E)], A2 as [A2 _].
  assert (Ey : Ok y1 = Ok y2) by (apply (A2 s s'); [exact Hr|exact E|discriminate]). injection Ey as <-. reflexivity.
Qed.
End Map.
(** workers that are free of what they find on a used graph *)
Lemma used_free {A B} (f : A -> prog B) (P : B -> Prop) (R : A -> Prop) : (forall a, R a -> careful g o P (f a)) -> (forall a, R a -> Free (f a)) -> Location_free g roots tries k (Used g roots o base) R f.
Proof.
  intros Hc Hf. apply location_free. intros a Ha. destruct (Hf a Ha) as (z & Hz). exists z. intros s s' x (cur & S) E Hx. pose proof (Hz cur (ctr s) (proj1 (proj2 (proj2 S)))) as V.
  assert (W : match on_vector (f a) cur (ctr s) with Ok (b, cur', r') => x = Ok b /\ ctr s' = r' /\ Stands g roots o base s' cur' /\ P b | Err e => x = Err e end).
  { pose proof (Hc a Ha) as Hcar. clear Hc Hf Hz. destruct Hg as [Hwf [Hi Hh] Hp Hd Hck Hb Ho]. apply (ParamOrder_order g Hwf) in Ho. clear Hg Hs. subst o.
    pose proof (refines g roots base tries k Hwf Hi Hh Hp Hd Hck Hb P (f a) Hcar s cur S) as W. rewrite E in W. exact (W Hx). }
  destruct (on_vector (f a) cur (ctr s)) as [[[b c] r']|e].
  - destruct W as (-> & _ & St & _). cbn [forget] in V. split; [exact V|]. intros y _. exists c. exact St.
  - subst x. cbn [forget] in V. split; [exact V|]. discriminate.
Qed.
(** workers that start by sampling *)
Lemma any_free {A B} (f : A -> prog B) (P : B -> Prop) (R : A -> Prop) :
  (forall a, R a -> exists r0 c, f a = Rand (fun _ => Ok (r0, tt)) (fun _ => Prior c) /\ careful g o P c) -> Location_free g roots tries k (Any g roots o base) R f.
Proof.
  intros Hc. apply location_free. intros a Ha. destruct (Hc a Ha) as (r0 & c & Ef & Hcar). exists (forget (on_vector (Prior c) [] r0)). intros s s' x Hany E Hx. rewrite Ef in E. cbn [M_Worker.on_graph] in E.
  assert (W : match on_vector (Prior c) [] r0 with Ok (b, cur', r') => x = Ok b /\ ctr s' = r' /\ Stands g roots o base s' cur' /\ P b | Err e => x = Err e end).
  { clear Hc Ef. destruct Hg as [Hwf [Hi Hh] Hp Hd Hck Hb Ho]. apply (ParamOrder_order g Hwf) in Ho. clear Hg Hs. subst o.
    assert (FL : fresh_like g roots base (with_ctr s r0)).
    { destruct Hany as [(cur & S)|(U1 & U2 & U3)].
      - pose proof (stands_fresh g roots base Hwf s cur S) as (F1 & F2 & F3). split; [exact F1|]. split; [exact F2|exact F3].
      - split; [exact U1|]. split; [exact U2|]. intros n (r & Hr & Hn) Hno. exact (U3 r n Hr Hn Hno). }
    pose proof (refines_prior g roots base tries k Hwf Hi Hh Hp Hd Hck Hb P c Hcar (with_ctr s r0) [] FL) as W. cbn [M_Worker.on_graph] in W. rewrite E in W. exact (W Hx). }
  destruct (on_vector (Prior c) [] r0) as [[[b c'] r']|e].
  - destruct W as (-> & _ & St & _). split; [reflexivity|]. intros y _. left. exists c'. exact St.
  - subst x. split; [reflexivity|]. discriminate.
Qed.
End Free.
