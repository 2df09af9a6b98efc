(** Prior sampling draws the nodes of the graph in a fixed order (C79). *)
From Verif Require Import M_Base M_Graph S_Graph L_Graph L_Graph2 L_Graph3.

(** the order in which the walk draws the nodes, and the marks it leaves *)
Fixpoint plan_loop (rec : nat -> (nat -> bool) -> list nat * (nat -> bool)) (ps : list nat) (seen : nat -> bool) : list nat * (nat -> bool) :=
  match ps with
  | [] => ([], seen)
  | p :: ps' => if seen p then plan_loop rec ps' seen
                else let '(l1, s1) := rec p (upd seen p true) in let '(l2, s2) := plan_loop rec ps' s1 in (l1 ++ l2, s2)
  end.
Fixpoint plan_node (g : graph) (fuel n : nat) (seen : nat -> bool) : list nat * (nat -> bool) :=
  match fuel with
  | 0 => ([], seen)
  | S f => let '(l, s1) := plan_loop (plan_node g f) (gpar g n) seen in (l ++ [n], upd (if is_hyper g n then upd s1 n true else s1) n true)
  end.
Fixpoint plan_roots (g : graph) (fuel : nat) (rs : list nat) (seen : nat -> bool) : list nat * (nat -> bool) :=
  match rs with
  | [] => ([], seen)
  | r :: rs' => let '(l1, s1) := plan_loop (plan_node g fuel) (gpar g r) seen in let '(l2, s2) := plan_roots g fuel rs' (upd s1 r true) in (l1 ++ l2, s2)
  end.
(** drawing the nodes of a list one after the other, until inputs are refused *)
Fixpoint pass (g : graph) (T : list nat) (v : nat -> option (list Q)) (t : nat) : (nat -> option (list Q)) * nat * bool :=
  match T with
  | [] => (v, t, true)
  | n :: T' =>
      if is_hyper g n then pass g T' v t
      else if gchk_in g n (inputs_at g v n) then
        match gsim g n (inputs_at g v n) 1 t with
        | Some (x :: _) => pass g T' (upd v n (Some x)) (S t)
        | _ => (v, S t, false)
        end
      else (v, t, false)
  end.
Lemma pass_app g l1 l2 : forall v t, pass g (l1 ++ l2) v t = (let '(v1, t1, b1) := pass g l1 v t in if b1 then pass g l2 v1 t1 else (v1, t1, false)).
Proof.
  induction l1 as [|n l1 IH]; intros v t; [reflexivity|]. cbn [app pass]. destruct (is_hyper g n); [apply IH|]. destruct (gchk_in g n (inputs_at g v n)); [|reflexivity].
  destruct (gsim g n (inputs_at g v n) 1 t) as [[|x rest]|]; [reflexivity|apply IH|reflexivity].
Qed.

Section Walk.
Variable g : graph.
Hypothesis Hwf : wf g.
(** no arithmetic nodes; a simulator that answers gives one value of the declared dimension that its own check accepts *)
Hypothesis no_oper : forall n, is_oper g n = false.
Hypothesis answers : forall n ins t x, is_free g n = true -> gsim g n ins 1 t = Some x -> exists y rest, x = y :: rest /\ length y = gdim g n.
Hypothesis accepts : forall n ins t y rest, is_free g n = true -> gchk_in g n ins = true -> gsim g n ins 1 t = Some (y :: rest) -> gchk_out g n ins y = true.

Definition follows (l : list nat) (seen : nat -> bool) (s : st) (r : st * res bool) : Prop :=
  let '(v', t', b) := pass g l (val s) (ctr s) in
  exists s', r = (s', Ok b) /\ val s' = v' /\ ctr s' = t' /\ vals_ok g s' /\ cpdf s' = cpdf s /\ (b = true -> vis s' = seen /\ tr s' = tr s ++ l).
Lemma draw_follows f n s : vals_ok g s -> follows [n] (if is_hyper g n then upd (vis s) n true else vis s) s (draw_and_store g (S f) n s).
Proof.
  intros Hv. unfold follows. cbn [pass]. unfold draw_and_store. destruct (is_hyper g n) eqn:Eh.
  - eexists. split; [reflexivity|]. cbn. auto 10.
  - assert (Hf : is_free g n = true) by (unfold is_free; rewrite Eh, no_oper; reflexivity).
    unfold bind at 1. rewrite (input_values_ok g Hwf s n Hv). destruct (gchk_in g n (inputs_at g (val s) n)) eqn:Ei; [|eexists; split; [reflexivity|]; cbn; split; [reflexivity|split; [reflexivity|split; [exact Hv|split; [reflexivity|discriminate]]]]].
    unfold bind at 1. assert (F : fsim g (S f) n 1 s = (mkst (vis s) (val s) (cpdf s) (S (ctr s)) (tr s), Ok (gsim g n (inputs_at g (val s) n) 1 (ctr s)))).
    { cbn [fsim]. unfold is_free, is_hyper, is_oper in Hf. destruct (gkind g n); try discriminate; unfold bind; rewrite (input_values_ok g Hwf s n Hv); reflexivity. }
    rewrite F. destruct (gsim g n (inputs_at g (val s) n) 1 (ctr s)) as [x|] eqn:Es.
    + destruct (answers n _ _ x Hf Es) as (y & rest & -> & Hl). set (s1 := mkst (vis s) (val s) (cpdf s) (S (ctr s)) (tr s)). unfold bind at 1. cbn [emit].
      set (s2 := mkst (vis s1) (val s1) (cpdf s1) (ctr s1) (tr s1 ++ [n])). assert (Hv2 : vals_ok g s2) by exact Hv.
      assert (W : set_output_values g n y s2 = (mkst (vis s2) (upd (val s2) n (Some y)) (cpdf s2) (ctr s2) (tr s2), Ok true)).
      { unfold set_output_values. rewrite Hl, Nat.eqb_refl. unfold bind. rewrite (input_values_ok g Hwf s2 n Hv2). change (val s2) with (val s). rewrite (accepts n _ _ y rest Hf Ei Es). reflexivity. }
      unfold bind. cbn [emit]. fold s2. rewrite W. unfold ret. eexists. split; [reflexivity|]. split; [reflexivity|]. split; [reflexivity|]. split; [|split; [reflexivity|intros _; split; reflexivity]].
      intros m w. cbn. unfold upd. destruct (Nat.eqb_spec m n) as [->|]; [intros E; injection E as <-; exact Hl|apply Hv].
    + eexists. split; [reflexivity|]. split; [reflexivity|]. split; [reflexivity|]. split; [exact Hv|]. split; [reflexivity|discriminate].
Qed.
Lemma follows_app l1 l2 seen1 seen2 s (m : M st bool) (k : M st bool) : follows l1 seen1 s (m s) -> (forall s1, vals_ok g s1 -> vis s1 = seen1 -> follows l2 seen2 s1 (k s1)) ->
  follows (l1 ++ l2) seen2 s ((ok <- m ;; if ok : bool then k else ret false) s).
Proof.
  unfold follows. intros H1 H2. rewrite pass_app. destruct (pass g l1 (val s) (ctr s)) as [[v1 t1] b1]. destruct H1 as (s1 & E1 & <- & <- & Hv1 & Hc1 & Hb1). unfold bind at 1. rewrite E1. destruct b1.
  - destruct (Hb1 eq_refl) as (Hs1 & Ht1). specialize (H2 s1 Hv1 Hs1). destruct (pass g l2 (val s1) (ctr s1)) as [[v2 t2] b2]. destruct H2 as (s2 & E2 & Hval & Hctr & Hv2 & Hc2 & Hb2).
    exists s2. split; [exact E2|]. split; [exact Hval|]. split; [exact Hctr|]. split; [exact Hv2|]. split; [congruence|]. intros X. destruct (Hb2 X) as (Y1 & Y2). split; [exact Y1|]. rewrite Y2, Ht1, app_assoc. reflexivity.
  - exists s1. split; [reflexivity|]. split; [reflexivity|]. split; [reflexivity|]. split; [exact Hv1|]. split; [exact Hc1|discriminate].
Qed.
Lemma loop_follows rec prec f : (forall p s, p < f -> vals_ok g s -> follows (fst (prec p (vis s))) (snd (prec p (vis s))) s (rec p s)) -> forall ps s, (forall p, In p ps -> p < f) -> vals_ok g s ->
  follows (fst (plan_loop prec ps (vis s))) (snd (plan_loop prec ps (vis s))) s (sample_loop rec ps s).
Proof.
  intros Hrec. induction ps as [|p ps IH]; intros s Hp Hv.
  - unfold follows. cbn. eexists. split; [reflexivity|]. rewrite app_nil_r. auto 10.
  - cbn [plan_loop sample_loop]. unfold bind at 1. cbn [get_vis]. destruct (vis s p) eqn:Ev; [apply IH; [intros q Hq; apply Hp; right; exact Hq|exact Hv]|].
    set (s0 := mkst (upd (vis s) p true) (val s) (cpdf s) (ctr s) (tr s)). unfold bind at 1. cbn [set_vis]. fold s0. change (upd (vis s) p true) with (vis s0).
    destruct (prec p (vis s0)) as [l1 s1] eqn:E1. destruct (plan_loop prec ps s1) as [l2 s2] eqn:E2. cbn [fst snd].
    apply (follows_app l1 l2 s1 s2 s0 (rec p) (sample_loop rec ps)).
    + assert (F := Hrec p s0 (Hp p (or_introl eq_refl)) Hv). rewrite E1 in F. exact F.
    + intros s3 Hv3 Hs3. assert (F := IH s3 (fun q Hq => Hp q (or_intror Hq)) Hv3). rewrite Hs3, E2 in F. exact F.
Qed.
Lemma node_follows f : forall n s, n < f -> vals_ok g s -> follows (fst (plan_node g f n (vis s))) (snd (plan_node g f n (vis s))) s (sample_node g f n s).
Proof.
  induction f as [|f IH]; intros n s Hn Hv; [lia|]. cbn [plan_node sample_node]. destruct (plan_loop (plan_node g f) (gpar g n) (vis s)) as [l s1] eqn:E1. cbn [fst snd].
  apply (follows_app l [n] s1 _ s).
  - assert (F := loop_follows (sample_node g f) (plan_node g f) f IH (gpar g n) s). rewrite E1 in F. apply F; [|exact Hv]. intros p Hp. destruct Hwf as (W & _). specialize (W n p Hp). lia.
  - intros s2 Hv2 Hs2. assert (D := draw_follows f n s2 Hv2). unfold follows in *. destruct (pass g [n] (val s2) (ctr s2)) as [[v' t'] b]. destruct D as (s3 & E3 & A1 & A2 & A3 & A4 & A5).
    unfold bind. rewrite E3. destruct b.
    + destruct (A5 eq_refl) as (A6 & A7). eexists. split; [reflexivity|]. cbn. split; [exact A1|]. split; [exact A2|]. split; [exact A3|]. split; [exact A4|]. intros _. rewrite A6, Hs2. split; [reflexivity|exact A7].
    + exists s3. split; [reflexivity|]. split; [exact A1|]. split; [exact A2|]. split; [exact A3|]. split; [exact A4|discriminate].
Qed.
Lemma roots_follows f : forall rs s, (forall r p, In r rs -> In p (gpar g r) -> p < f) -> vals_ok g s -> follows (fst (plan_roots g f rs (vis s))) (snd (plan_roots g f rs (vis s))) s (sample_roots g f rs s).
Proof.
  induction rs as [|r rs IH]; intros s Hp Hv.
  - unfold follows. cbn. eexists. split; [reflexivity|]. rewrite app_nil_r. auto 10.
  - cbn [plan_roots sample_roots]. destruct (plan_loop (plan_node g f) (gpar g r) (vis s)) as [l1 s1] eqn:E1. destruct (plan_roots g f rs (upd s1 r true)) as [l2 s2] eqn:E2. cbn [fst snd].
    apply (follows_app l1 l2 s1 s2 s _ (set_vis r true ;;; sample_roots g f rs)).
    + assert (F := loop_follows (sample_node g f) (plan_node g f) f (node_follows f) (gpar g r) s). rewrite E1 in F. apply F; [|exact Hv]. intros p H. apply (Hp r); [left; reflexivity|exact H].
    + intros s3 Hv3 Hs3. unfold bind at 1. cbn [set_vis]. set (s4 := mkst (upd (vis s3) r true) (val s3) (cpdf s3) (ctr s3) (tr s3)).
      assert (F := IH s4 (fun r' p H => Hp r' p (or_intror H)) Hv3). unfold s4 at 1 2 in F. cbn [vis] in F. rewrite Hs3, E2 in F. exact F.
Qed.
End Walk.

(** the order depends only on the marks of the nodes met *)
Section Ext.
Variable g : graph.
Variable D : nat -> Prop.
Hypothesis closed : forall n p, D n -> In p (gpar g n) -> D p.
Definition agree (s1 s2 : nat -> bool) : Prop := forall n, D n -> s1 n = s2 n.
Lemma agree_upd s1 s2 n b : agree s1 s2 -> agree (upd s1 n b) (upd s2 n b).
Proof. intros H m Hm. unfold upd. destruct (Nat.eqb m n); [reflexivity|apply H, Hm]. Qed.
Definition same2 (r1 r2 : list nat * (nat -> bool)) : Prop := fst r1 = fst r2 /\ agree (snd r1) (snd r2).
Lemma plan_loop_ext rec : (forall p s1 s2, D p -> agree s1 s2 -> same2 (rec p s1) (rec p s2)) -> forall ps s1 s2, (forall p, In p ps -> D p) -> agree s1 s2 -> same2 (plan_loop rec ps s1) (plan_loop rec ps s2).
Proof.
  intros Hrec. induction ps as [|p ps IH]; intros s1 s2 Hp Ha; [split; [reflexivity|exact Ha]|]. cbn [plan_loop]. rewrite <- (Ha p (Hp p (or_introl eq_refl))).
  assert (Hp' : forall q, In q ps -> D q) by (intros q Hq; apply Hp; right; exact Hq). destruct (s1 p); [apply IH; assumption|].
  destruct (Hrec p (upd s1 p true) (upd s2 p true) (Hp p (or_introl eq_refl)) (agree_upd _ _ _ _ Ha)) as [E1 E2]. destruct (rec p (upd s1 p true)) as [l1 t1], (rec p (upd s2 p true)) as [l2 t2]. cbn [fst snd] in *. subst l2.
  destruct (IH t1 t2 Hp' E2) as [F1 F2]. destruct (plan_loop rec ps t1) as [l3 t3], (plan_loop rec ps t2) as [l4 t4]. cbn [fst snd] in *. subst l4. split; [reflexivity|exact F2].
Qed.
Lemma plan_node_ext f : forall n s1 s2, D n -> agree s1 s2 -> same2 (plan_node g f n s1) (plan_node g f n s2).
Proof.
  induction f as [|f IH]; intros n s1 s2 Hn Ha; [split; [reflexivity|exact Ha]|]. cbn [plan_node].
  destruct (plan_loop_ext (plan_node g f) IH (gpar g n) s1 s2 (fun p Hp => closed n p Hn Hp) Ha) as [E1 E2]. destruct (plan_loop (plan_node g f) (gpar g n) s1) as [l1 t1], (plan_loop (plan_node g f) (gpar g n) s2) as [l2 t2]. cbn [fst snd] in *. subst l2.
  split; [reflexivity|]. cbn [snd]. destruct (is_hyper g n); repeat apply agree_upd; exact E2.
Qed.
Lemma plan_roots_ext f : forall rs s1 s2, (forall r, In r rs -> D r) -> agree s1 s2 -> same2 (plan_roots g f rs s1) (plan_roots g f rs s2).
Proof.
  induction rs as [|r rs IH]; intros s1 s2 Hr Ha; [split; [reflexivity|exact Ha]|]. cbn [plan_roots].
  destruct (plan_loop_ext (plan_node g f) (plan_node_ext f) (gpar g r) s1 s2 (fun p Hp => closed r p (Hr r (or_introl eq_refl)) Hp) Ha) as [E1 E2]. destruct (plan_loop (plan_node g f) (gpar g r) s1) as [l1 t1], (plan_loop (plan_node g f) (gpar g r) s2) as [l2 t2]. cbn [fst snd] in *. subst l2.
  destruct (IH (upd t1 r true) (upd t2 r true) (fun q Hq => Hr q (or_intror Hq)) (agree_upd _ _ _ _ E2)) as [F1 F2]. destruct (plan_roots g f rs (upd t1 r true)) as [l3 t3], (plan_roots g f rs (upd t2 r true)) as [l4 t4]. cbn [fst snd] in *. subst l4. split; [reflexivity|exact F2].
Qed.
End Ext.
(** the order for an unmarked graph *)
Definition plan (g : graph) (roots : list nat) : list nat := fst (plan_roots g (depth roots) roots (fun _ => false)).
Definition member (g : graph) (roots : list nat) (n : nat) : Prop := exists r, In r roots /\ (n = r \/ Anc g n r).
Lemma member_closed g roots n p : member g roots n -> In p (gpar g n) -> member g roots p.
Proof.
  intros (r & Hr & [->|H]) Hp; exists r; (split; [exact Hr|right]); [apply anc_par; exact Hp|].
  clear Hr. induction H as [a n0 Hin|a q n0 Hin _ IH]; [apply anc_step with a; [exact Hin|apply anc_par; exact Hp]|apply anc_step with q; [exact Hin|apply IH, Hp]].
Qed.
Lemma plan_clean g roots s : clean g roots s -> fst (plan_roots g (depth roots) roots (vis s)) = plan g roots.
Proof.
  intros H. apply (plan_roots_ext g (member g roots) (member_closed g roots)); [intros r Hr; exists r; auto|]. intros n (r & Hr & Hn). apply (H r n Hr Hn).
Qed.
(** one pass on a clean graph, marks taken down *)
Lemma pass_spec g : wf g -> (forall n, is_oper g n = false) -> (forall n ins t x, is_free g n = true -> gsim g n ins 1 t = Some x -> exists y rest, x = y :: rest /\ length y = gdim g n) ->
  (forall n ins t y rest, is_free g n = true -> gchk_in g n ins = true -> gsim g n ins 1 t = Some (y :: rest) -> gchk_out g n ins y = true) ->
  forall roots s, clean g roots s -> vals_ok g s ->
  let '(v', t', b) := pass g (plan g roots) (val s) (ctr s) in
  exists s1 s2, sample_roots g (depth roots) roots s = (s1, Ok b) /\ reset_flags g roots s1 = (s2, Ok tt) /\ clean g roots s2 /\ vals_ok g s2 /\ val s2 = v' /\ ctr s2 = t' /\ (b = true -> tr s2 = tr s ++ plan g roots).
Proof.
  intros Hwf Ho Ha Hc roots s Hcl Hv.
  assert (F := roots_follows g Hwf Ho Ha Hc (depth roots) roots s). rewrite (plan_clean g roots s Hcl) in F. unfold follows in F.
  destruct (pass g (plan g roots) (val s) (ctr s)) as [[v' t'] b]. destruct F as (s1 & E1 & E2 & E3 & E4 & _ & E5); [|exact Hv|].
  { intros r p Hr Hp. destruct Hwf as (W & _). specialize (W r p Hp). pose proof (depth_lt roots r Hr). lia. }
  destruct (reset_flags_spec g Hwf roots s1) as (s2 & E6 & Hcd). exists s1, s2. split; [exact E1|]. split; [exact E6|]. split; [exact (reset_clean g Hwf roots s1 s2 E6)|].
  destruct Hcd as (_ & _ & C1 & C2 & C3). split; [intros m w; rewrite C1; apply E4|]. split; [congruence|]. split; [congruence|]. intros X. rewrite C3. apply (proj2 (E5 X)).
Qed.

(** the nodes of the order: all inputs, once, after their own inputs *)
Definition silent (g : graph) : graph :=
  {| gkind := gkind g; gconn := gconn g; gdim := gdim g; gchk_in := fun _ _ => true; gchk_out := fun _ _ _ => true; gdens := gdens g;
     gsim := fun n _ _ _ => Some [repeat 0%Q (gdim g n)]; gop := gop g; gpow := gpow g |}.
Lemma plan_silent g roots : plan (silent g) roots = plan g roots.
Proof.
  unfold plan. assert (N : forall f n seen, plan_node (silent g) f n seen = plan_node g f n seen) by (induction f as [|f IH]; intros n seen; [reflexivity|]; cbn [plan_node]; change (gpar (silent g) n) with (gpar g n); change (is_hyper (silent g) n) with (is_hyper g n);
    replace (plan_loop (plan_node (silent g) f) (gpar g n) seen) with (plan_loop (plan_node g f) (gpar g n) seen); [reflexivity|]; generalize (gpar g n) seen; induction l as [|p l IHl]; intros sn; [reflexivity|]; cbn [plan_loop]; rewrite IH; destruct (sn p); [apply IHl|]; destruct (plan_node g f p (upd sn p true)); rewrite IHl; reflexivity).
  generalize (fun _ : nat => false) (depth roots). induction roots as [|r rs IH]; intros seen d; [reflexivity|]. cbn [plan_roots]. change (gpar (silent g) r) with (gpar g r).
  replace (plan_loop (plan_node (silent g) d) (gpar g r) seen) with (plan_loop (plan_node g d) (gpar g r) seen).
  - destruct (plan_loop (plan_node g d) (gpar g r) seen) as [l1 s1]. specialize (IH (upd s1 r true) d). destruct (plan_roots (silent g) d rs (upd s1 r true)), (plan_roots g d rs (upd s1 r true)). cbn [fst] in *. congruence.
  - generalize (gpar g r) seen. induction l as [|p l IHl]; intros sn; [reflexivity|]. cbn [plan_loop]. rewrite N. destruct (sn p); [apply IHl|]. destruct (plan_node g d p (upd sn p true)). rewrite IHl. reflexivity.
Qed.
Lemma Anc_silent g a n : Anc (silent g) a n <-> Anc g a n.
Proof. split; (induction 1 as [a n H|a p n H _ IH]; [apply anc_par; exact H|apply anc_step with p; [exact H|exact IH]]). Qed.
Lemma pass_silent g T : forall v t, snd (pass (silent g) T v t) = true.
Proof. induction T as [|n T IH]; intros v t; [reflexivity|]. cbn [pass]. destruct (is_hyper (silent g) n); [apply IH|]. cbn [silent gchk_in gsim]. apply IH. Qed.
Lemma plan_facts g : wf g -> (forall n, is_oper g n = false) -> forall roots, indep g roots ->
  NoDup (plan g roots) /\ (forall n, In n (plan g roots) <-> exists r, In r roots /\ Anc g n r) /\ (forall l1 n l2, plan g roots = l1 ++ n :: l2 -> forall q, In q (gpar g n) -> In q l1).
Proof.
  intros Hwf Ho roots Hi. set (h := silent g). assert (Hwh : wf h) by exact Hwf. assert (Hih : indep h roots) by (intros r r' Hr Hr' Ha; apply (Hi r r' Hr Hr'), Anc_silent, Ha).
  set (s0 := mkst (fun _ => false) (fun _ => None) (fun _ => None) 0 []).
  assert (P := pass_spec h Hwh Ho ltac:(intros n ins t x _ E; cbn in E; injection E as <-; eexists _, _; split; [reflexivity|apply repeat_length]) ltac:(reflexivity) roots s0 ltac:(intros r n _ _; reflexivity) ltac:(intros n v; discriminate)).
  pose proof (pass_silent g (plan h roots) (val s0) (ctr s0)) as B. fold h in B. destruct (pass h (plan h roots) (val s0) (ctr s0)) as [[v' t'] b]. cbn [snd] in B. subst b. destruct P as (s1 & s2 & H1 & H2 & _ & _ & _ & _ & Ht). specialize (Ht eq_refl).
  rewrite <- (plan_silent g roots). fold h. set (T := plan h roots) in *.
  assert (F : sample_from_prior h roots 1 s0 = (s2, Ok tt)) by (cbn [sample_from_prior]; unfold bind; rewrite H1, H2; reflexivity).
  destruct (sample_roots_ok h Hwh ltac:(reflexivity) (flat_map (E h) roots) s0 (down_EE h Hwh roots) (depth roots) roots s0 s1 [] []) as (T' & G & (L & HT & HL) & Hincl & HJ).
  - intros r Hr. apply depth_lt in Hr. lia.
  - intros r Hr. apply in_flat_map. exists r. split; [exact Hr|apply (E_self h Hwh)].
  - apply (indep_rootsep h Hwh). exact Hih.
  - intros m [].
  - constructor; [intros n v; discriminate| |constructor| |reflexivity|cbn; lia|].
    + intros m Hm. cbn. split; [discriminate|intros [[]|[]]].
    + intros l1 n l2 Heq. destruct l1; discriminate.
    + exists (fun _ => 0). split; intros n; [intros []|intros m []].
  - exact H1.
  - cbn in HT. subst L. destruct HJ as [A B C F' I K _]. destruct (reset_flags_spec h Hwh roots s1) as (s2' & R1 & (_ & _ & _ & _ & R2)). rewrite H2 in R1. injection R1 as <-. rewrite R2 in Ht. rewrite I in Ht. cbn in Ht. subst T'.
    split; [exact C|]. split; [|exact F'].
    intros n. split.
    + intros Hn. apply HL in Hn. rewrite flat_map_flat_map in Hn. apply in_flat_map in Hn. destruct Hn as [r [Hr Hn]]. exists r. split; [exact Hr|apply Anc_silent, (Anc_below h Hwh); exact Hn].
    + intros [r [Hr Ha]]. apply Anc_silent in Ha. fold h in Ha.
      assert (Hstep : forall a m, Anc h a m -> (forall q, In q (gpar h m) -> In q T) -> In a T).
      { clear - F'. induction 1 as [a m Hp|a q m Hp Ha IHa]; intros Hm; [apply Hm; exact Hp|]. apply IHa. intros z Hz. apply (topo_parents h T F' q z (Hm q Hp) Hz). }
      apply (Hstep n r Ha). intros q Hq. apply Hincl. apply in_flat_map. exists r. split; assumption.
Qed.
