(** Proofs about the Metropolis-Hastings loop. *)
From Verif Require Import M_Base S_Infer M_MCMC S_MCMC.
Open Scope nat_scope.

Section P.
Variables Theta Rng Y F Cov : Type.
Variables fadd fsub fmul fdiv : F -> F -> F.
Variable fexp : F -> F.
Variable flt : F -> F -> bool.
Variable fzero : F -> bool.
Variable setp : Theta -> Theta -> bool * Theta.
Variable pdfv : Theta -> Theta -> F.
Variable kupd : Theta -> Cov -> Rng -> Rng * Theta.
Variable simc : Theta -> Rng -> Rng * option Y.
Variable loglik : Y -> F.
Variable inv : Theta -> Theta.
Variable ldj : Theta -> res F.
Variable unif : Rng -> Rng * F.
Variable adapt : list Theta -> Cov.
Notation Move := (Move fadd fsub fmul fdiv fexp flt fzero setp pdfv kupd simc loglik inv ldj unif).
Notation Walk := (Walk fadd fsub fmul fdiv fexp flt fzero setp pdfv kupd simc loglik inv ldj unif adapt).
Notation chain := (chain Theta Rng F Cov).
Notation c_pt := (c_pt Theta Rng F Cov).
Notation c_acc := (c_acc Theta Rng F Cov).
Notation c_sims := (c_sims Theta Rng F Cov).
Notation c_cov := (c_cov Theta Rng F Cov).
Notation c_burn := (c_burn Theta Rng F Cov).
Notation c_trace := (c_trace Theta Rng F Cov).
Notation q_th := (q_th Theta F).
Notation mh_step := (mh_step Theta Rng Y F Cov fadd fsub fmul fdiv fexp flt fzero setp pdfv kupd simc loglik inv ldj unif adapt).
Notation mh_loop := (mh_loop Theta Rng Y F Cov fadd fsub fmul fdiv fexp flt fzero setp pdfv kupd simc loglik inv ldj unif adapt).
Hypothesis Hset : set_ok setp.

Lemma sim_ll_spec th cur r r' l cur' : sim_ll Theta Rng Y F setp simc loglik th cur r = Ok (r', l, cur') -> LogLik setp simc loglik th l.
Proof.
  unfold sim_ll. destruct (setp th cur) as [ok c1] eqn:Es. cbn [snd]. destruct (simc c1 r) as [r1 [d|]] eqn:Ed; [|discriminate]. intros H. injection H as <- <- <-.
  exists c1, r, r1, d. split; [exact Ed|]. split; [reflexivity|]. destruct ok; [left; apply (proj1 Hset _ _ _ Es) | right; eauto].
Qed.
Lemma step_spec burnin interval t c c' : mh_step burnin interval t c = Ok c' ->
  exists v, Move (c_cov c) (c_pt c) v (c_pt c')
  /\ c_cov c' = (if (t <? burnin) && negb (veqb v Outside) && match interval with None => false | Some k => (t + 1) mod k =? 0 end then adapt (c_burn c ++ [q_th (c_pt c')]) else c_cov c)
  /\ c_burn c' = (if t <? burnin then c_burn c ++ [q_th (c_pt c')] else c_burn c)
  /\ c_trace c' = (if t <? burnin then c_trace c else c_trace c ++ [q_th (c_pt c')])
  /\ c_acc c' = c_acc c + (if t <? burnin then 0 else tally Accepted [v])
  /\ c_sims c' = c_sims c + (1 - tally Outside [v]).
Proof.
  unfold M_MCMC.mh_step. destruct (kupd _ (c_cov c) _) as [r1 y] eqn:Ek. cbv zeta.
  assert (Eb : (burnin <=? t) = negb (t <? burnin)) by (destruct (Nat.leb_spec burnin t), (Nat.ltb_spec t burnin); try reflexivity; lia). rewrite Eb.
  destruct (fzero _) eqn:Ez.
  - intros H. injection H as <-. exists Outside. cbn [M_MCMC.c_pt M_MCMC.c_cov M_MCMC.c_burn M_MCMC.c_trace M_MCMC.c_acc M_MCMC.c_sims].
    split; [eapply mv_out; [exact Ek | exact Ez]|]. rewrite andb_false_r. cbn [andb]. split; [reflexivity|]. destruct (t <? burnin); cbn; rewrite !Nat.add_0_r; auto.
  - destruct (sim_ll _ _ _ _ _ _ _ _ _ _) as [[[r2 l] cur2]|] eqn:El; [|discriminate]. apply sim_ll_spec in El. destruct (ldj (inv y)) as [j|] eqn:Ej; [|discriminate]. destruct (unif r2) as [r3 u] eqn:Eu.
    set (s' := mkpt _ _ _ _ _ _ _). assert (HC : Candidate fzero setp pdfv kupd simc loglik inv ldj (c_cov c) (c_pt c) s').
    { eexists _, _, _. split; [exact Ek|]. split; [reflexivity|]. split; [reflexivity|]. split; [exact Ez|]. split; [exact El | exact Ej]. }
    set (ok := flt u _). set (t' := if ok then s' else c_pt c).
    assert (HM : Move (c_cov c) (c_pt c) (if ok then Accepted else Rejected) t').
    { unfold t'. destruct ok eqn:Eok; [eapply mv_acc | eapply mv_rej]; eassumption. }
    destruct (t <? burnin) eqn:Et; cbn [negb].
    + rewrite andb_false_r. destruct interval as [[|k]|]; [discriminate| |]; intros H; injection H as <-; exists (if ok then Accepted else Rejected); cbn [M_MCMC.c_pt M_MCMC.c_cov M_MCMC.c_burn M_MCMC.c_trace M_MCMC.c_acc M_MCMC.c_sims];
        (split; [exact HM|]); destruct ok; cbn [negb veqb andb]; (split; [reflexivity|]); (split; [reflexivity|]); (split; [reflexivity|]); (split; [lia|]); unfold tally; cbn [filter length veqb]; lia.
    + intros H; injection H as <-; exists (if ok then Accepted else Rejected); cbn [M_MCMC.c_pt M_MCMC.c_cov M_MCMC.c_burn M_MCMC.c_trace M_MCMC.c_acc M_MCMC.c_sims]; (split; [exact HM|]); destruct ok; cbn [negb veqb andb]; (split; [reflexivity|]); (split; [reflexivity|]); (split; [reflexivity|]); unfold tally; cbn [filter length veqb]; lia.
Qed.
Lemma tally_cons v a l : tally v (a :: l) = tally v [a] + tally v l.
Proof. unfold tally. cbn. destruct (veqb v a); reflexivity. Qed.
Lemma loop_spec burnin interval todo : forall t c c', mh_loop burnin interval t todo c = Ok c' ->
  exists l, Walk burnin interval t (c_pt c) (c_cov c) (c_burn c) l (c_cov c') /\ length l = todo /\ c_pt c' = last (map snd l) (c_pt c)
  /\ c_trace c' = c_trace c ++ map (fun x => q_th (snd x)) (skipn (burnin - t) l)
  /\ c_acc c' = c_acc c + tally Accepted (map fst (skipn (burnin - t) l)) /\ c_sims c' + tally Outside (map fst l) = c_sims c + todo.
Proof.
  induction todo as [|k IH]; intros t c c' H; cbn [M_MCMC.mh_loop] in H.
  - injection H as <-. exists []. rewrite skipn_nil. cbn. rewrite app_nil_r, !Nat.add_0_r. split; [constructor|]. auto.
  - destruct (mh_step burnin interval t c) as [c1|] eqn:E1; [|discriminate]. apply step_spec in E1. destruct E1 as (v & HM & E1 & E2 & E3 & E4 & E5).
    destruct (IH (S t) c1 c' H) as (l & HW & Hl & Hp & Ht & Ha & Hs). exists ((v, c_pt c1) :: l). split; [rewrite E2 in HW; econstructor; eassumption|]. split; [cbn; congruence|].
    split. { rewrite Hp. cbn [map snd]. clear. destruct l as [|x l]; [reflexivity|]. change (last (c_pt c1 :: map snd (x :: l)) (c_pt c)) with (last (map snd (x :: l)) (c_pt c)). generalize x. induction l as [|y l IH]; intros z; [reflexivity|]. exact (IH y). }
    assert (Hv : forall v, tally Outside [v] <= 1) by (intros []; cbn; lia).
    split; [|split].
    + rewrite Ht, E3. destruct (Nat.ltb_spec t burnin).
      * replace (burnin - t) with (S (burnin - S t)) by lia. reflexivity.
      * replace (burnin - t) with 0 by lia. replace (burnin - S t) with 0 by lia. cbn. rewrite <- app_assoc. reflexivity.
    + rewrite Ha, E4. destruct (Nat.ltb_spec t burnin).
      * replace (burnin - t) with (S (burnin - S t)) by lia. cbn [skipn]. lia.
      * replace (burnin - t) with 0 by lia. replace (burnin - S t) with 0 by lia. cbn [skipn map fst]. rewrite (tally_cons Accepted v (map fst l)). lia.
    + cbn [map fst]. rewrite (tally_cons Outside v (map fst l)). specialize (Hv v). lia.
Qed.
End P.
