(** Proofs about input connectors. *)
From Coq Require Import FinFun.
From Verif Require Import M_Base M_Connector S_Connector.

Lemma nth_error_rev {A} (l : list A) k : k < length l -> nth_error (rev l) k = nth_error l (length l - S k).
Proof.
  intros H. destruct l as [|x l]; [cbn in H; lia|]. set (m := x :: l) in *.
  rewrite (nth_error_nth' (rev m) x) by (rewrite rev_length; exact H). rewrite (nth_error_nth' m x) by lia. rewrite rev_nth by exact H. reflexivity.
Qed.
Lemma pynth_component {A} (l : list A) j : pynth l j = component l j.
Proof.
  unfold pynth, component. destruct (Z.ltb_spec j 0) as [Hj|Hj]; [|reflexivity]. destruct (Z.leb_spec (- j) (Z.of_nat (length l))) as [Hl|Hl].
  - rewrite nth_error_rev by lia. f_equal. lia.
  - symmetry. apply nth_error_None. rewrite rev_length. lia.
Qed.

Fixpoint item_rect' (P : item -> Prop) (Hn : forall q, P (INum q)) (Hm : forall m, P (IModel m)) (Hc : forall c, P (IConn c))
  (Ho : P IOther) (Hl : forall l, Forall P l -> P (IList l)) (x : item) : P x :=
  match x with
  | INum q => Hn q
  | IModel m => Hm m
  | IConn c => Hc c
  | IOther => Ho
  | IList l => Hl l ((fix go l : Forall P l :=
                        match l with
                        | [] => Forall_nil P
                        | y :: l' => Forall_cons y (item_rect' P Hn Hm Hc Ho Hl y) (go l')
                        end) l)
  end.

Lemma list_set_app {A} (pre post : list A) x a : list_set (pre ++ x :: post) (length pre) a = pre ++ a :: post.
Proof. induction pre as [|y pre IH]; cbn; [reflexivity | rewrite IH; reflexivity]. Qed.

Lemma conn_set_next pm pj r m j : length pm = length pj ->
  conn_set (mkconn (pm ++ repeat None (S r)) (pj ++ repeat None (S r))) (length pm) m j
  = Ok (mkconn ((pm ++ [m]) ++ repeat None r) ((pj ++ [j]) ++ repeat None r)).
Proof.
  intros Hl. unfold conn_set. cbn [cmodels cidx repeat].
  rewrite app_length. cbn [length]. destruct (Nat.ltb_spec (length pm) (length pm + S (length (repeat (@None nat) r)))); [|lia].
  rewrite list_set_app. rewrite Hl at 1. rewrite list_set_app. rewrite <- !app_assoc. reflexivity.
Qed.

Lemma from_model_loop_spec m n : forall a pm pj, length pm = a -> length pj = a ->
  from_model_loop m (seq a n) (mkconn (pm ++ repeat None n) (pj ++ repeat None n))
  = Ok (mkconn (pm ++ repeat (Some m) n) (pj ++ map (fun j => Some (Z.of_nat j)) (seq a n))).
Proof.
  induction n as [|n IH]; intros a pm pj H1 H2; cbn [seq from_model_loop map]; [reflexivity|].
  rewrite <- H1 at 1. rewrite conn_set_next by congruence. rewrite IH by (rewrite app_length; cbn; lia).
  rewrite <- !app_assoc. reflexivity.
Qed.

Definition ents (c : conn) := combine (cmodels c) (cidx c).
Definition wfc (c : conn) := length (cmodels c) = length (cidx c).

Lemma copy_one_spec p n r : forall x y ms js pm pj,
  cmodels p = x ++ ms -> cidx p = y ++ js -> length x = length y -> length ms = n -> length js = n ->
  length pm = length pj ->
  copy_one p (seq (length x) n) (length pm) (mkconn (pm ++ repeat None (n + r)) (pj ++ repeat None (n + r)))
  = Ok (length pm + n, mkconn ((pm ++ ms) ++ repeat None r) ((pj ++ js) ++ repeat None r)).
Proof.
  induction n as [|n IH]; intros x y ms js pm pj Hm Hj Hxy Hms Hjs Hp.
  - destruct ms; [|discriminate]. destruct js; [|discriminate]. cbn. rewrite !app_nil_r, Nat.add_0_r. reflexivity.
  - destruct ms as [|m ms]; [discriminate|]. destruct js as [|j js]; [discriminate|].
    cbn [seq copy_one]. rewrite Hm. rewrite nth_error_app2 by lia. rewrite Nat.sub_diag. cbn [nth_error].
    rewrite Hj. rewrite nth_error_app2 by lia. rewrite Hxy, Nat.sub_diag. cbn [nth_error Nat.add].
    rewrite conn_set_next by exact Hp. cbn in Hms, Hjs.
    replace (S (length y)) with (length (x ++ [m])) by (rewrite app_length; cbn; lia).
    replace (S (length pm)) with (length (pm ++ [m])) by (rewrite app_length; cbn; lia).
    rewrite (IH (x ++ [m]) (y ++ [j]) ms js (pm ++ [m]) (pj ++ [j]));
      try (rewrite <- app_assoc; assumption); try (rewrite !app_length; cbn; lia); try lia.
    rewrite <- !app_assoc. f_equal. f_equal. rewrite app_length. cbn. lia.
Qed.

Lemma copy_all_spec ps : Forall wfc ps -> forall pm pj r, length pm = length pj ->
  copy_all ps (length pm) (mkconn (pm ++ repeat None (list_sum (map conn_count ps) + r)) (pj ++ repeat None (list_sum (map conn_count ps) + r)))
  = Ok (mkconn ((pm ++ flat_map cmodels ps) ++ repeat None r) ((pj ++ flat_map cidx ps) ++ repeat None r)).
Proof.
  unfold list_sum. induction 1 as [|p ps Hp _ IH]; intros pm pj r Hl; cbn [map fold_right flat_map copy_all].
  - rewrite !app_nil_r. reflexivity.
  - rewrite <- Nat.add_assoc. change 0 with (@length nat []) at 1.
    rewrite (copy_one_spec p (conn_count p) _ [] [] (cmodels p) (cidx p)); try reflexivity; try assumption; [|symmetry; exact Hp].
    replace (length pm + conn_count p) with (length (pm ++ cmodels p)) by (rewrite app_length; reflexivity).
    rewrite IH by (rewrite !app_length; congruence). rewrite <- !app_assoc. reflexivity.
Qed.
Lemma assemble_spec ps : Forall wfc ps -> assemble ps (list_sum (map conn_count ps)) = Ok (mkconn (flat_map cmodels ps) (flat_map cidx ps)).
Proof.
  intros H. unfold assemble, conn_new. pose proof (copy_all_spec ps H [] [] 0 eq_refl) as E.
  rewrite Nat.add_0_r in E. cbn [length app] in E. rewrite E. cbn [repeat]. rewrite !app_nil_r. reflexivity.
Qed.

Lemma grows_refl h : grows h h.
Proof. split; auto. Qed.
Lemma grows_trans a b c : grows a b -> grows b c -> grows a c.
Proof.
  intros [A1 A2] [B1 B2]. split; [lia|]. intros m Hm. destruct (A2 m Hm), (B2 m ltac:(lia)). split; congruence.
Qed.
Lemma realises_up h0 h h' e mj : grows h h' -> realises h0 h e mj -> realises h0 h' e mj.
Proof.
  intros [G1 G2]. destruct e as [m j|q]; cbn; [auto|]. intros (n & -> & Hn & Ho & Hd).
  destruct (G2 n ltac:(lia)). exists n. repeat split; try lia; congruence.
Qed.
Lemma realises_down h0 h1 h e mj : grows h0 h1 -> realises h1 h e mj -> realises h0 h e mj.
Proof.
  intros [G1 G2]. destruct e as [m j|q]; cbn; [auto|]. intros (n & -> & Hn & Ho & Hd).
  exists n. repeat split; try lia; congruence.
Qed.
Lemma old_up n n' x : n <= n' -> old n x -> old n' x.
Proof.
  intros Hn. induction x as [q|m|c| |l IH] using item_rect'; cbn [old]; auto.
  - lia.
  - intros [A B]. split; [exact A|]. eapply Forall_impl; [|exact B]. intros [k|]; [lia | auto].
  - induction IH as [|y l Hy _ IHl]; cbn [fold_right]; [auto|]. intros [A B]. split; auto.
Qed.
Lemma flat_ext n d d' x : (forall m, m < n -> d m = d' m) -> old n x -> flat d x = flat d' x.
Proof.
  intros Hd. induction x as [q|m|c| |l IH] using item_rect'; intros Ho; cbn [flat]; try reflexivity.
  - rewrite Hd by exact Ho. reflexivity.
  - cbn [old] in Ho. induction IH as [|y l Hy _ IHl]; cbn [fold_right] in *; [reflexivity|].
    destruct Ho as [A B]. rewrite Hy by exact A. rewrite IHl by exact B. reflexivity.
Qed.

(** new nodes of the number entries, in order *)
Definition numnodes (es : list entry) (mjs : list (option nat * option Z)) : list (option nat) :=
  flat_map (fun p => match fst p with ENum _ => [fst (snd p)] | ERef _ _ => [] end) (combine es mjs).
Lemma numnodes_refs l mjs : numnodes (map (fun mj => ERef (fst mj) (snd mj)) l) mjs = [].
Proof.
  unfold numnodes. revert mjs. induction l as [|x l IH]; intros [|y mjs]; try reflexivity. cbn. apply IH.
Qed.
Lemma combine_app {A B} (a1 a2 : list A) (b1 b2 : list B) : length a1 = length b1 ->
  combine (a1 ++ a2) (b1 ++ b2) = combine a1 b1 ++ combine a2 b2.
Proof.
  revert b1. induction a1 as [|x a1 IH]; intros [|y b1] H; cbn in *; try lia; [reflexivity|]. rewrite IH by lia. reflexivity.
Qed.

Definition good (h : heap) (es : list entry) (h' : heap) (c : conn) : Prop :=
  grows h h' /\ wfc c /\ Forall2 (realises h h') es (ents c)
  /\ numnodes es (ents c) = map Some (seq (nxt h) (nxt h' - nxt h)).

Definition item_ok (x : item) : Prop := forall h, old (nxt h) x ->
  match flat (hdim h) x with
  | Some es => exists h' c, from_item x h = (h', Ok c) /\ good h es h' c
  | None => exists h', from_item x h = (h', Err TypeError) /\ grows h h'
  end.

Lemma refs_good h (l : list (option nat * option Z)) c : wfc c -> ents c = l ->
  good h (map (fun mj => ERef (fst mj) (snd mj)) l) h c.
Proof.
  intros Hw <-. split; [apply grows_refl|]. split; [exact Hw|]. split.
  - induction (ents c) as [|[m j] l IH]; cbn; constructor; auto. reflexivity.
  - rewrite numnodes_refs, Nat.sub_diag. reflexivity.
Qed.

Lemma combine_repeat {A B} (x : A) (f : nat -> B) d : forall a,
  combine (repeat x d) (map f (seq a d)) = map (fun j => (x, f j)) (seq a d).
Proof. induction d as [|d IH]; intros a; cbn; [reflexivity|]. rewrite IH. reflexivity. Qed.
Lemma Forall2_impl' {A B} (P P' : A -> B -> Prop) l l' : (forall a b, P a b -> P' a b) -> Forall2 P l l' -> Forall2 P' l l'.
Proof. intros H. induction 1; constructor; auto. Qed.
Lemma Forall2_len {A B} (P : A -> B -> Prop) l l' : Forall2 P l l' -> length l = length l'.
Proof. induction 1; cbn; congruence. Qed.
Lemma item_ok_all x : item_ok x.
Proof.
  induction x as [q|m|c| |l IH] using item_rect'; intros h Ho; cbn [flat].
  - eexists _, _. split; [reflexivity|]. split; [|split; [reflexivity|split]].
    + split; cbn; [lia|]. intros m Hm. unfold upd. destruct (Nat.eqb_spec m (nxt h)); [lia|]. auto.
    + cbn. constructor; [|constructor]. exists (nxt h). unfold upd. cbn. rewrite Nat.eqb_refl. repeat split; try lia.
    + cbn [nxt]. replace (S (nxt h) - nxt h) with 1 by lia. reflexivity.
  - assert (Hc : from_model m h = (h, Ok (mkconn (repeat (Some m) (hdim h m)) (map (fun j => Some (Z.of_nat j)) (seq 0 (hdim h m)))))).
    { unfold from_model, conn_new. f_equal. apply (from_model_loop_spec m (hdim h m) 0 [] []); reflexivity. }
    eexists _, _. split; [exact Hc|].
    pose proof (refs_good h (map (fun j => (Some m, Some (Z.of_nat j))) (seq 0 (hdim h m)))
                  (mkconn (repeat (Some m) (hdim h m)) (map (fun j => Some (Z.of_nat j)) (seq 0 (hdim h m))))) as G.
    rewrite map_map in G. apply G.
    + unfold wfc. cbn. rewrite repeat_length, map_length, seq_length. reflexivity.
    + apply combine_repeat.
  - eexists _, _. split; [reflexivity|]. apply refs_good; [apply Ho | reflexivity].
  - exists h. split; [reflexivity | apply grows_refl].
  - cbn [old] in Ho.
    assert (HL : match fold_right (fun y acc => match flat (hdim h) y, acc with Some a, Some b => Some (a ++ b) | _, _ => None end) (Some []) l with
      | Some es => exists h' cs, items_loop from_item l h = (h', Ok (cs, list_sum (map conn_count cs)))
                   /\ Forall wfc cs /\ good h es h' (mkconn (flat_map cmodels cs) (flat_map cidx cs))
      | None => exists h', items_loop from_item l h = (h', Err TypeError) /\ grows h h'
      end).
    { revert h Ho. induction IH as [|y l Hy _ IHl]; intros h Ho; cbn [fold_right] in *.
      - exists h, []. split; [reflexivity|]. split; [constructor|]. split; [apply grows_refl|]. split; [reflexivity|].
        split; [constructor|]. cbn. rewrite Nat.sub_diag. reflexivity.
      - destruct Ho as [Ho1 Ho2]. specialize (Hy h Ho1). cbn [items_loop]. unfold bind.
        destruct (flat (hdim h) y) as [a|].
        + destruct Hy as (h1 & c1 & Hc1 & Hg1). rewrite Hc1.
          destruct Hg1 as (G1 & W1 & R1 & N1).
          assert (Ho2' : fold_right (fun y P => old (nxt h1) y /\ P) True l).
          { apply (old_up (nxt h) (nxt h1) (IList l)); [apply G1 | exact Ho2]. }
          specialize (IHl h1 Ho2').
          assert (Hflat : fold_right (fun y acc => match flat (hdim h1) y, acc with Some a, Some b => Some (a ++ b) | _, _ => None end) (Some []) l
                        = fold_right (fun y acc => match flat (hdim h) y, acc with Some a, Some b => Some (a ++ b) | _, _ => None end) (Some []) l).
          { apply (flat_ext (nxt h) (hdim h1) (hdim h) (IList l)); [intros m Hm; apply G1; exact Hm | exact Ho2]. }
          rewrite Hflat in IHl. clear Hflat.
          destruct (fold_right _ (Some []) l) as [b|].
          * destruct IHl as (h2 & cs & Hcs & Hw & G2 & W2 & R2 & N2). rewrite Hcs.
            exists h2, (c1 :: cs). cbn [ret fst snd]. split; [reflexivity|]. split; [constructor; assumption|].
            split; [apply (grows_trans _ h1); assumption|]. cbn [flat_map].
            unfold wfc, ents in *. cbn [cmodels cidx] in *.
            split; [rewrite !app_length; congruence|]. split.
            -- rewrite combine_app by exact W1. apply Forall2_app.
               ++ eapply Forall2_impl'; [|exact R1]. intros e mj. apply realises_up. exact G2.
               ++ eapply Forall2_impl'; [|exact R2]. intros e mj. apply realises_down. exact G1.
            -- rewrite combine_app by exact W1. unfold numnodes in *.
               rewrite combine_app by (eapply Forall2_len; exact R1). rewrite flat_map_app, N1, N2, <- map_app.
               destruct G1 as [G1 _], G2 as [G2 _]. idtac.
               replace (nxt h1) with (nxt h + (nxt h1 - nxt h)) at 2 by lia. rewrite <- seq_app. f_equal. f_equal. lia.
          * destruct IHl as (h2 & Hcs & G2). rewrite Hcs. exists h2. split; [reflexivity | apply (grows_trans _ h1); assumption].
        + destruct Hy as (h1 & Hc1 & G1). rewrite Hc1. exists h1. split; [reflexivity | exact G1]. }
    destruct (fold_right _ (Some []) l) as [es|].
    + destruct HL as (h' & cs & Hcs & Hw & Hg). cbn [from_item]. unfold bind. rewrite Hcs. cbn [fst snd].
      rewrite assemble_spec by exact Hw. eexists _, _. split; [reflexivity | exact Hg].
    + destruct HL as (h' & Hcs & G). cbn [from_item]. unfold bind. rewrite Hcs. exists h'. split; [reflexivity | exact G].
Qed.

Lemma flat_width d n x es : old n x -> flat d x = Some es -> length es = width d x.
Proof.
  revert es. induction x as [q|m|c| |l IH] using item_rect'; intros es Ho H; cbn [flat width] in *.
  - inversion H. reflexivity.
  - inversion H. rewrite map_length, seq_length. reflexivity.
  - inversion H. rewrite map_length, combine_length. cbn in Ho. destruct Ho as [Ho _]. lia.
  - discriminate.
  - cbn [old] in Ho. revert es Ho H. induction IH as [|y l Hy _ IHl]; intros es Ho H; cbn [fold_right] in *.
    + inversion H. reflexivity.
    + destruct Ho as [Ho1 Ho2]. destruct (flat d y) as [a|]; [|discriminate].
      destruct (fold_right (fun y acc => match flat d y, acc with Some a, Some b => Some (a ++ b) | _, _ => None end) (Some []) l) as [b|]; [|discriminate].
      inversion H; subst. rewrite app_length, (Hy a Ho1 eq_refl), (IHl b Ho2 eq_refl). reflexivity.
Qed.

Lemma conn_get_value h0 h c es i : grows h0 h -> wfc c -> Forall2 (realises h0 h) es (ents c) ->
  forall e, nth_error es i = Some e -> conn_get h c i = value_of h e.
Proof.
  intros G W R e He.
  assert (Hi : exists mj, nth_error (ents c) i = Some mj /\ realises h0 h e mj).
  { clear - R He. revert i He. induction R as [|x y l l' Hxy _ IH]; intros [|i] He; cbn in *; try discriminate.
    - inversion He; subst. eauto.
    - apply IH. exact He. }
  destruct Hi as ([m j] & Hmj & Hr). unfold ents in Hmj.
  assert (Hs : nth_error (cmodels c) i = Some m /\ nth_error (cidx c) i = Some j).
  { clear - Hmj. revert i Hmj. generalize (cmodels c) (cidx c). induction l as [|a l IH]; intros [|b l0] [|i] H; cbn in *; try discriminate.
    - inversion H; auto. - apply IH. exact H. }
  destruct Hs as [Hs1 Hs2]. unfold conn_get. rewrite Hs1, Hs2.
  destruct e as [m' j'|q]; cbn [realises] in Hr.
  - inversion Hr; subst. cbn [value_of]. destruct m' as [m'|], j' as [j'|]; try reflexivity. destruct (hout h m') as [l|]; [rewrite pynth_component|]; reflexivity.
  - destruct Hr as (n & Hn & _ & Ho & _). inversion Hn; subst. rewrite Ho. reflexivity.
Qed.

Lemma nth_error_ext_map {A B} (f : nat -> B) (g : A -> B) (es : list A) :
  (forall i e, nth_error es i = Some e -> f i = g e) -> map f (seq 0 (length es)) = map g es.
Proof.
  intros H. assert (Hg : forall a l, (forall i e, nth_error l i = Some e -> f (a + i) = g e) -> map f (seq a (length l)) = map g l).
  { intros a l. revert a. induction l as [|x l IH]; intros a Hx; cbn; [reflexivity|]. f_equal.
    - rewrite <- (Hx 0 x eq_refl). f_equal. lia.
    - apply IH. intros i e He. rewrite <- (Hx (S i) e He). f_equal. lia. }
  apply Hg. exact H.
Qed.
Lemma values_spec h0 h c es : grows h0 h -> wfc c -> Forall2 (realises h0 h) es (ents c) ->
  get_values h c = seq_res (map (value_of h) es).
Proof.
  intros G W R. unfold get_values. f_equal.
  assert (Hl : length es = conn_count c).
  { rewrite (Forall2_len _ _ _ R). unfold ents, conn_count. rewrite combine_length. unfold wfc in W. lia. }
  rewrite <- Hl. apply nth_error_ext_map. intros i e He. apply (conn_get_value h0 h c es i G W R e He).
Qed.

Lemma from_list_ok l h es : old (nxt h) (IList l) -> flat (hdim h) (IList l) = Some es ->
  exists h' c, from_list (IList l) h = (h', Ok c)
    /\ conn_count c = width (hdim h) (IList l)
    /\ Forall2 (realises h h') es (combine (cmodels c) (cidx c))
    /\ NoDup (flat_map (fun p => match fst p with ENum _ => [fst (snd p)] | ERef _ _ => [] end)
                       (combine es (combine (cmodels c) (cidx c))))
    /\ grows h h'
    /\ forall h2, grows h' h2 -> get_values h2 c = seq_res (map (value_of h2) es).
Proof.
  intros Ho Hf. pose proof (item_ok_all (IList l) h Ho) as H. rewrite Hf in H.
  destruct H as (h' & c & Hc & G & W & R & N). exists h', c. split; [exact Hc|].
  split. { rewrite <- (flat_width _ _ _ _ Ho Hf). rewrite (Forall2_len _ _ _ R). unfold ents, conn_count.
           rewrite combine_length. unfold wfc in W. lia. }
  split; [exact R|]. split; [|split; [exact G|]].
  - fold (ents c). change (NoDup (numnodes es (ents c))). rewrite N. apply FinFun.Injective_map_NoDup; [|apply seq_NoDup].
    intros a b E. congruence.
  - intros h2 G2. apply (values_spec h h2 c es); [apply (grows_trans _ h'); assumption | exact W|].
    eapply Forall2_impl'; [|exact R]. intros e mj. apply realises_up. exact G2.
Qed.
Lemma from_list_bad x h : old (nxt h) x -> (flat (hdim h) x = None \/ forall l, x <> IList l) ->
  exists h', from_list x h = (h', Err TypeError) /\ grows h h'.
Proof.
  intros Ho Hf. destruct x as [q|m|c|l|]; try (exists h; split; [reflexivity | apply grows_refl]).
  destruct Hf as [Hf|Hf]; [|exfalso; apply (Hf l); reflexivity].
  pose proof (item_ok_all (IList l) h Ho) as H. rewrite Hf in H. exact H.
Qed.
Lemma getitem_spec h m j : (0 <= j)%Z ->
  (if (Z.of_nat (hdim h m) <=? j)%Z then model_getitem h m j = Err IndexError
   else exists c, model_getitem h m j = Ok c /\ conn_count c = 1
     /\ forall h2 l, hout h2 m = Some l -> length l = hdim h m -> exists q, nth_error l (Z.to_nat j) = Some q /\ get_values h2 c = Ok [Some q]).
Proof.
  intros Hj. unfold model_getitem. destruct (Z.leb_spec (Z.of_nat (hdim h m)) j) as [H|H]; [reflexivity|].
  eexists. split; [reflexivity|]. split; [reflexivity|]. intros h2 l Hl Hd.
  destruct (nth_error l (Z.to_nat j)) as [q|] eqn:Hq.
  - exists q. split; [reflexivity|]. cbn. rewrite Hl. unfold pynth. destruct (Z.ltb_spec j 0); [lia|]. rewrite Hq. reflexivity.
  - apply nth_error_None in Hq. lia.
Qed.
