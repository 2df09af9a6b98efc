(** C66: the reference data of several models. *)
From Coq Require Import Reals Lia.
From Verif Require Import M_Base M_Num M_XReal M_MMD M_Stats M_KNN M_PenLik S_Stats S_PenLik P_PenLik.
Open Scope R_scope.

Section Models.
Variable rng : Type.
Variable theta : Type.
Variable draw : nat -> theta -> rng -> list R * rng.
(** One run of the generator: each draw (of the model it is tagged with) starts from the generator the draw before it left, and the
    last one leaves the second generator. *)
Inductive Run (th : theta) : rng -> list (nat * list R) -> rng -> Prop :=
| Run_end : forall g, Run th g [] g
| Run_draw : forall k g row g1 rest g2, draw k th g = (row, g1) -> Run th g1 rest g2 -> Run th g ((k, row) :: rest) g2.
Lemma run_app th l : forall g g1 l' g2, Run th g l g1 -> Run th g1 l' g2 -> Run th g (l ++ l') g2.
Proof. induction l as [|[k r] l IH]; intros g g1 l' g2 H H'; inversion H; subst; [assumption|]. cbn [app]. econstructor; [eassumption|eapply IH; eassumption]. Qed.

Lemma fill_run k th : forall todo fuel done g, (todo <= fuel)%nat -> (done <> [] \/ todo <> 0%nat) ->
  exists rows g', M_PenLik.fill rng theta draw fuel k th (map Some done ++ repeat None todo) (length done) g = Ok (map Some (done ++ rows), g') /\ length rows = todo /\ Run th g (map (pair k) rows) g'.
Proof.
  induction todo as [|todo IH]; intros fuel done g Hf Hne.
  - exists [], g. cbn [repeat]. rewrite !app_nil_r. split; [|split; [reflexivity|constructor]].
    destruct Hne as [Hne|Hne]; [|lia]. destruct (exists_last Hne) as (l & x & ->). destruct fuel; cbn [M_PenLik.fill]; rewrite map_app; cbn [map]; rewrite last_app_none; destruct (map Some l ++ [Some x]) eqn:E; try reflexivity; destruct l; discriminate.
  - destruct fuel as [|fuel]; [lia|]. destruct (draw k th g) as [row g1] eqn:ED.
    destruct (IH fuel (done ++ [row]) g1 ltac:(lia) ltac:(left; destruct done; discriminate)) as (rows & g' & E & L & HR).
    exists (row :: rows), g'. split; [|split; [cbn; lia|cbn [map]; econstructor; eassumption]].
    cbn [M_PenLik.fill]. rewrite last_app_r by (cbn; discriminate). rewrite last_repeat. rewrite ED. rewrite app_length, map_length, repeat_length.
    destruct (Nat.ltb_spec (length done) (length done + S todo)) as [_|H]; [|lia].
    assert (E1 : firstn (length done) (map Some done ++ repeat None (S todo)) = map Some done). { rewrite <- (map_length (@Some (list R)) done). rewrite firstn_app, Nat.sub_diag, firstn_O, app_nil_r. apply firstn_all. }
    assert (E2 : skipn (S (length done)) (map Some done ++ repeat None (S todo)) = repeat (@None (list R)) todo). { rewrite <- (map_length (@Some (list R)) done). clear. induction (map Some done) as [|y l IH]; [reflexivity|exact IH]. }
    rewrite E1, E2. rewrite map_app, app_length in E. cbn [map length] in E. rewrite <- app_assoc in E. replace (length done + 1)%nat with (S (length done)) in E by lia. cbn [app] in E. rewrite E.
    rewrite <- app_assoc. cbn [app]. destruct (map Some done ++ repeat None (S todo)) eqn:EE; [destruct done; discriminate|]. reflexivity.
Qed.
(** With any number of models: n draws of each, in the order of the models, all with the same parameter value and all in one run of
    the generator: no two draws start from the same place of the run, and the generator that is left is the one after all of them. *)
Theorem C66_models : forall fuel n th ks g, (1 <= n <= fuel)%nat ->
  exists blocks g', M_PenLik.models_loop rng theta draw fuel n ks th g = Ok (map (fun rows => squeeze (length (nth 0 rows [])) rows) blocks, g') /\
    length blocks = length ks /\ Forall (fun rows => length rows = n) blocks /\
    Run th g (concat (map (fun kb => map (pair (fst kb)) (snd kb)) (combine ks blocks))) g'.
Proof.
  intros fuel n th ks g Hn. revert g. induction ks as [|k ks IH]; intros g.
  - exists [], g. split; [reflexivity|]. split; [reflexivity|]. split; constructor.
  - cbn [M_PenLik.models_loop]. destruct (fill_run k th n fuel [] g ltac:(lia) ltac:(right; lia)) as (rows & g1 & E & L & D). cbn [map app length] in E. rewrite E. cbn [rthen fst snd].
    destruct (IH g1) as (bl & g2 & E2 & L2 & F2 & R2). rewrite E2. cbn [rthen fst snd]. exists (rows :: bl), g2. split; [cbn [map]; rewrite map_map, map_id; reflexivity|].
    split; [cbn [length]; congruence|]. split; [constructor; assumption|]. cbn [combine map concat fst snd]. eapply run_app; eassumption.
Qed.
End Models.
Print Assumptions C66_models.

(** Two models and two simulations each: the second model goes on where the first stopped. *)
Module Two.
Definition draw (k : nat) (th : R) (g : nat) : list R * nat := ([th; INR (10 * k + g)], S g).
Example C66_models_case : M_PenLik.models_loop nat R draw 5 2 [0%nat; 1%nat] 3 4%nat =
  Ok ([A2 [[3; INR 4]; [3; INR 5]]; A2 [[3; INR 16]; [3; INR 17]]], 8%nat).
Proof. reflexivity. Qed.
End Two.
