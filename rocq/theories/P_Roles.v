(** Property C51: roles of the ranks in the MPI backend. *)
From Verif Require Import M_Base M_Roles L_Roles.
From Coq Require Import ZArith.

(** The configuration the factory always builds, scheduler ranks [0], any process count p > 0 and any size >= 2: accepted;
    each rank has exactly one role; rank 0 is the only scheduler; each other rank has exactly one leader in its team;
    team k consists of the next p ranks (the last one may be shorter); the scheduler communicator holds the scheduler
    and the leaders, in this order; there is a leader, and at the start of a map exactly the leaders are to be waited for. *)
Theorem C51_default : forall p, 0 < p -> forall size, 2 <= size ->
  configure [0] p size = Ready
  /\ (forall r, r < size -> exists! k, nth_error [f_scheduler (role [0] p r); f_leader (role [0] p r); f_worker (role [0] p r)] k = Some true)
  /\ (forall r, r < size -> f_scheduler (role [0] p r) = true <-> r = 0)
  /\ (forall r, 0 < r < size -> exists! l, l < size /\ color [0] p l = color [0] p r /\ f_leader (role [0] p l) = true)
  /\ (forall k, filter (fun r => Z.eqb (color [0] p r) (Z.of_nat (S k))) (seq 0 size) = seq (S (k * p)) (Nat.min p (size - S (k * p))))
  /\ scheduler_members [0] p size = 0 :: filter (fun r => f_leader (role [0] p r)) (seq 0 size)
  /\ exists n, 0 < n /\ length (filter (fun r => f_leader (role [0] p r)) (seq 0 size)) = n /\ map_done0 [0] p size = true :: repeat false n.
Proof. exact default_ok. Qed.
Print Assumptions C51_default.
Example C51_default_ex : map (fun r => (color [0] 3 r, f_leader (role [0] 3 r))) (seq 0 9)
  = [(0%Z, false); (1%Z, true); (1%Z, false); (1%Z, false); (2%Z, true); (2%Z, false); (2%Z, false); (3%Z, true); (3%Z, false)].
Proof. reflexivity. Qed.

(** Any scheduler list containing 0: each rank outside it has exactly one leader in its team. *)
Theorem C51_teams : forall sched ppm size r, 0 < ppm -> NoDup sched -> In 0 sched -> r < size -> ~ In r sched ->
  exists! l, l < size /\ color sched ppm l = color sched ppm r /\ f_leader (role sched ppm l) = true.
Proof. exact general_team. Qed.
Print Assumptions C51_teams.
Example C51_teams_ex : NoDup [0; 3] /\ filter (fun r => f_leader (role [0; 3] 2 r)) (seq 0 6) = [1; 4].
Proof. split; [repeat constructor; cbn; intuition discriminate | reflexivity]. Qed.

(** With two scheduler ranks the map loop waits for the wrong ranks: it indexes ranks of the scheduler communicator by
    world ranks.  Size 6, two processes per model, schedulers 0 and 3: entry 2 is world rank 3, which never asks for
    work, and the leader at entry 3 is taken to be done before it starts. *)
Theorem C51_second_scheduler_refuted : exists sched ppm size,
  configure sched ppm size = Ready /\ NoDup sched /\ In 0 sched
  /\ exists i w, nth_error (scheduler_members sched ppm size) i = Some w /\ nth_error (map_done0 sched ppm size) i = Some false
                 /\ f_leader (role sched ppm w) = false
  /\ exists j v, nth_error (scheduler_members sched ppm size) j = Some v /\ nth_error (map_done0 sched ppm size) j = Some true
                 /\ f_leader (role sched ppm v) = true.
Proof.
  exists [0; 3], 2, 6. split; [reflexivity|]. split; [repeat constructor; cbn; intuition discriminate|]. split; [left; reflexivity|].
  exists 2, 3. split; [reflexivity|]. split; [reflexivity|]. split; [reflexivity|]. exists 3, 4. repeat split.
Qed.
Print Assumptions C51_second_scheduler_refuted.
(** A list without rank 0, or one with every rank, is not refused: some team has no leader, or there is no team. *)
Theorem C51_refusal_refuted :
  (exists sched ppm size r, configure sched ppm size = Ready /\ r < size /\ ~ In r sched /\ r <> 0
     /\ forall l, l < size -> color sched ppm l = color sched ppm r -> f_leader (role sched ppm l) = false)
  /\ (exists sched ppm size, configure sched ppm size = Ready /\ forall r, r < size -> f_leader (role sched ppm r) = false).
Proof.
  split.
  - exists [1], 2, 3, 2. split; [reflexivity|]. split; [lia|]. split; [cbn; lia|]. split; [lia|].
    intros [|[|[|l]]] Hl; try lia; intros E; try (vm_compute in E; discriminate); reflexivity.
  - exists [0; 1], 1, 2. split; [reflexivity|]. intros [|[|r]] Hr; try lia; reflexivity.
Qed.
Print Assumptions C51_refusal_refuted.
(** Refused: fewer than two ranks (no one would compute), or no process per model; every configuration that is not refused has a scheduler, another rank and at least one process per model. *)
Theorem C51_refused : forall sched ppm size,
  (ppm = 0 \/ size < 2 -> configure sched ppm size = Refused) /\ (configure sched ppm size = Ready -> 0 < ppm /\ exists r, 0 < r < size).
Proof.
  intros sched ppm size. unfold configure. destruct (Nat.eqb_spec ppm 0); destruct (Nat.ltb_spec size 2); (split; [intros; try reflexivity; lia | intros E; first [discriminate | split; [lia | exists 1; lia]]]).
Qed.
Print Assumptions C51_refused.
Example C51_refused_ex : configure [0] 1 1 = Refused /\ configure [0] 0 4 = Refused /\ configure [0] 1 2 = Ready.
Proof. split; [reflexivity | split; reflexivity]. Qed.
(** The rank a process gets in the communicator of the schedulers, or in that of its model, is its position among the processes there: the r-th entry of the
    list of members is the process that calls itself r. *)
Lemma split_position col size r c : r < size -> col r = c -> nth_error (split_members col size c) (split_rank col r) = Some r.
Proof.
  intros Hr <-. unfold split_members, split_rank. replace (seq 0 size) with (seq 0 r ++ seq r (size - r)) by (rewrite <- seq_app; f_equal; lia).
  rewrite filter_app, nth_error_app2 by lia. rewrite Nat.sub_diag. replace (size - r) with (S (size - S r)) by lia. cbn [seq filter]. rewrite Z.eqb_refl. reflexivity.
Qed.
Theorem C51_ranks : forall sched ppm size r, r < size ->
  nth_error (filter (fun j => Z.eqb (color sched ppm j) (color sched ppm r)) (seq 0 size)) (model_rank sched ppm r) = Some r
  /\ (In r (scheduler_members sched ppm size) -> nth_error (scheduler_members sched ppm size) (scheduler_rank sched ppm r) = Some r)
  /\ (In r (scheduler_members sched ppm size) <-> In r sched \/ color sched ppm r = 0%Z \/ (forall j, j < r -> color sched ppm j <> color sched ppm r)).
Proof.
  intros sched ppm size r Hr. split; [exact (split_position (color sched ppm) size r _ Hr eq_refl)|]. split.
  - intros Hi. unfold scheduler_members, split_members in Hi. apply filter_In in Hi. destruct Hi as [_ Hi]. apply Z.eqb_eq in Hi. exact (split_position (scolor sched ppm) size r 0%Z Hr Hi).
  - unfold scheduler_members, split_members. rewrite filter_In, in_seq, Z.eqb_eq. unfold scolor.
    assert (Hm : model_rank sched ppm r = 0 <-> forall j, j < r -> color sched ppm j <> color sched ppm r).
    { unfold model_rank, split_rank. rewrite length_zero_iff_nil. split.
      - intros E j Hj Ej. assert (In j []) as []. rewrite <- E. apply filter_In. split; [apply in_seq; lia | apply Z.eqb_eq; exact Ej].
      - intros H. destruct (filter (fun j => Z.eqb (color sched ppm j) (color sched ppm r)) (seq 0 r)) as [|j l] eqn:E; [reflexivity|].
        assert (Hi : In j (j :: l)) by (left; reflexivity). rewrite <- E in Hi. apply filter_In in Hi. destruct Hi as [Hi Ej]. apply in_seq in Hi. apply Z.eqb_eq in Ej. exfalso. apply (H j); [lia | exact Ej]. }
    assert (Hs : In r sched -> color sched ppm r = 0%Z).
    { intros Hi. unfold color. replace (memb r sched) with true; [reflexivity|]. symmetry. apply existsb_exists. exists r. split; [exact Hi | apply Nat.eqb_refl]. }
    destruct (Z.eqb_spec (color sched ppm r) 0) as [E|E]; cbn [orb].
    + split; [intros _; right; left; exact E | intros _; split; [lia | reflexivity]].
    + destruct (Nat.eqb_spec (model_rank sched ppm r) 0) as [E'|E'].
      * split; [intros _; right; right; apply Hm; exact E' | intros _; split; [lia | reflexivity]].
      * split; [intros [_ H]; discriminate H | intros [H | [H | H]]; [exfalso; exact (E (Hs H)) | contradiction | exfalso; apply E', Hm, H]].
Qed.
Print Assumptions C51_ranks.
Example C51_ranks_ex : scheduler_members [0] 2 6 = [0; 1; 3; 5] /\ map (scheduler_rank [0] 2) [0; 1; 3; 5] = [0; 1; 2; 3] /\ model_rank [0] 2 4 = 1.
Proof. split; [reflexivity | split; reflexivity]. Qed.
(** The factory ignores the documented keyword scheduler_node_ranks and fails on the one it reads, master_node_ranks; the processes per model are those asked
    for, or 1. *)
Theorem C51_factory : forall k, match kw_master k with
  | Some _ => factory k = None
  | None => exists p, factory k = Some ([0], p) /\ (forall q, kw_ppm k = Some q -> p = q) /\ (kw_ppm k = None -> p = 1)
  end.
Proof.
  intros [[m|] s [p|]]; cbn; try reflexivity; eexists; (split; [reflexivity|]); (split; [intros q E; congruence | intros E; congruence]).
Qed.
Print Assumptions C51_factory.
Example C51_factory_ex : factory (mkkw None (Some [0; 1; 2]) (Some 4)) = Some ([0], 4).
Proof. reflexivity. Qed.
