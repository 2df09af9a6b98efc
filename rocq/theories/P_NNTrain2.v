(** C84: which loader options the training routines accept. *)
From Coq Require Import Reals Lia.
From Verif Require Import M_Base M_Num M_XReal M_MMD M_KNN M_Similarity M_Losses M_Infer M_Trainer M_NNTrain P_NNTrain.
Open Scope nat_scope.

(** the options that a routine gives itself, and those a DataLoader does not know *)
Definition Foreign (k : key) : Prop := k = KBatch \/ k = KShuffle \/ exists i, k = KOther i.
Lemma kset_keys d k v k0 : In k0 (map fst (kset d k v)) <-> k0 = k \/ In k0 (map fst d).
Proof.
  induction d as [|[k' v'] d IH]; cbn [kset map fst]; [cbn [In]; intuition congruence|]. destruct (keq k k') eqn:E; cbn [map fst In].
  - assert (k = k') as <-. { destruct k, k'; try discriminate; try reflexivity. apply Nat.eqb_eq in E. congruence. } intuition congruence.
  - rewrite IH. intuition congruence.
Qed.
Lemma kupdate_keys e : forall d k0, In k0 (map fst (kupdate d e)) <-> In k0 (map fst d) \/ In k0 (map fst e).
Proof.
  unfold kupdate. induction e as [|[k v] e IH]; intros d k0; cbn [fold_left fst snd map]; [cbn [In]; tauto|]. rewrite IH, kset_keys. cbn [In]. intuition congruence.
Qed.
Lemma foreign_extra cuda load_all k : In k (map fst (extra cuda load_all)) -> ~ Foreign k.
Proof. unfold extra. destruct cuda, load_all; cbn; intros H [E|[E|(i & E)]]; subst; intuition congruence. Qed.
Lemma foreign_some (kw : kwargs) : existsb (fun kv => match fst kv with KBatch | KShuffle | KOther _ => true | _ => false end) kw = true <-> exists k, In k (map fst kw) /\ Foreign k.
Proof.
  rewrite existsb_exists. split.
  - intros ((k, v) & H & E). exists k. split; [apply (in_map fst) in H; exact H|]. cbn [fst] in E. destruct k; try discriminate; [left|right; left|right; right; eexists]; reflexivity.
  - intros (k & H & F). apply in_map_iff in H. destruct H as ((k', v) & E & H). cbn [fst] in E. subst k'. exists (k, v). split; [exact H|]. cbn [fst]. destruct F as [->|[->|(i & ->)]]; reflexivity.
Qed.

Section Options.
  Variables X Y W : Type.
  Variable cast : X -> X.
  Variable castY : Y -> Y.
  Variable coords : Y -> list R.
  Variable emb : W -> X -> list R.
  Variable item_ : xr -> num.
  Variable update : optimiser -> R -> (W -> xr) -> W -> W.
  Variable custom_rate : nat -> list (nat * Z) -> R -> nat -> R.
  Variable perm : nat -> nat -> list nat.
  Variable draws : bool -> nat -> nat -> nat -> nat.
  Variable unif : bool -> nat -> nat -> R.
  Variable fuel : nat.
  Notation routine := (routine X Y W cast castY coords emb item_ update custom_rate perm draws unif fuel).
  Notation make := (make X Y cast castY).
  Notation prepare := (prepare X Y cast castY).

  Lemma make_len k w xs l d : make k w xs l = Ok d -> dlen X Y d = length xs.
  Proof.
    unfold M_NNTrain.make. destruct k, l; try discriminate; try (intros H; injection H as <-; cbn [dlen]; apply map_length).
    destruct (Nat.eqb_spec (length xs) (length ys)) as [E|E]; cbn [negb]; [|discriminate]. intros H. injection H as <-. cbn [dlen]. rewrite map_length. congruence.
  Qed.

  (** For data that can be made into a data set, without validation data.  The routine ends with TypeError when the dictionary has an option that the routine gives itself
      (batch_size, shuffle) or that does not exist; and otherwise with ValueError when the number of workers is negative on the CPU, when there is no sample, or when the
      batch size is 0.  In all other cases the loader is built. *)
  Theorem C84_options : forall k s lk nd a w d, make k (weight X Y a) (samples X Y a) (labs X Y a) = Ok d -> samples_val X Y a = None -> labs_val X Y a = None ->
    let foreign := exists key, In key (map fst (s lk)) /\ Foreign key in
    let bad := (cuda X Y a = false /\ exists z, kget (s lk) KWorkers = Some z /\ (z < 0)%Z) \/ samples X Y a = [] \/ batch_size X Y a = 0 in
    (foreign -> snd (routine k s lk nd a w) = Err TypeError)
    /\ (~ foreign -> bad -> snd (routine k s lk nd a w) = Err ValueError)
    /\ (~ foreign -> ~ bad -> snd (prepare k s lk a) = rthen (optimizer X Y k a) (fun o =>
          Ok (mksetup X Y d (mkloader (batch_size X Y a) true
                (match cuda X Y a, load_all X Y a with false, _ => match kget (s lk) KWorkers with Some z => z | None => 0%Z end | true, true => 0%Z | true, false => 1%Z end)
                (match cuda X Y a, load_all X Y a with false, _ => istrue (kget (s lk) KPin) | true, true => false | true, false => true end)
                (istrue (kget (s lk) KDrop))) None o (scheduler X Y a) (data_dev (cuda X Y a) (load_all X Y a))))).
  Proof.
    intros k s lk nd a w d Hm Hv Hl foreign bad.
    assert (EP : snd (prepare k s lk a) = rthen (data_loader (dlen X Y d) (batch_size X Y a) true (kupdate (s lk) (extra (cuda X Y a) (load_all X Y a)))) (fun ld =>
      rthen (optimizer X Y k a) (fun o => Ok (mksetup X Y d ld None o (scheduler X Y a) (data_dev (cuda X Y a) (load_all X Y a)))))).
    { unfold M_NNTrain.prepare. rewrite Hm, Hv, Hl. cbn [snd]. destruct (data_loader _ _ _ _); reflexivity. }
    assert (ER : forall e, snd (prepare k s lk a) = Err e -> snd (routine k s lk nd a w) = Err e).
    { intros e E. unfold M_NNTrain.routine. destruct (prepare k s lk a) as [s' r]. cbn [snd] in E. subst r. reflexivity. }
    assert (EF : existsb (fun kv => match fst kv with KBatch | KShuffle | KOther _ => true | _ => false end) (kupdate (s lk) (extra (cuda X Y a) (load_all X Y a))) = true <-> foreign).
    { rewrite foreign_some. unfold foreign. split; intros (key & H & F); exists key; (split; [|exact F]).
      - apply kupdate_keys in H. destruct H as [H|H]; [exact H|]. apply foreign_extra in H. contradiction.
      - apply kupdate_keys. left. exact H. }
    assert (EN : (dlen X Y d =? 0) && true = true <-> samples X Y a = []).
    { rewrite (make_len _ _ _ _ _ Hm). rewrite andb_true_r, Nat.eqb_eq. split; [apply length_zero_iff_nil|intros ->; reflexivity]. }
    split; [|split].
    - intros F. apply ER. rewrite EP. unfold data_loader. apply EF in F. rewrite F. reflexivity.
    - intros F B. apply ER. rewrite EP. unfold data_loader. destruct (existsb _ _); [exfalso; apply F, EF; reflexivity|].
      rewrite kget_extra. destruct (match _ with Some z => (z <? 0)%Z | None => false end) eqn:EW; [reflexivity|].
      destruct ((dlen X Y d =? 0) && true); [reflexivity|]. destruct B as [(B & z & Ez & Hz)|[B|B]].
      + rewrite B, Ez in EW. apply Z.ltb_ge in EW. lia.
      + apply EN in B. discriminate.
      + rewrite B. reflexivity.
    - intros F B. rewrite EP. unfold data_loader. destruct (existsb _ _); [exfalso; apply F, EF; reflexivity|].
      rewrite !kget_extra. destruct (match _ with Some z => (z <? 0)%Z | None => false end) eqn:EW.
      { exfalso. apply B. left. destruct (cuda X Y a); [destruct (load_all X Y a); discriminate|]. split; [reflexivity|]. destruct (kget (s lk) KWorkers) as [z|]; [|discriminate]. exists z. split; [reflexivity|]. apply Z.ltb_lt. exact EW. }
      destruct ((dlen X Y d =? 0) && true); [exfalso; apply B; right; left; apply EN; reflexivity|].
      destruct (Nat.eqb_spec (batch_size X Y a) 0) as [E|E]; [exfalso; apply B; right; right; exact E|]. cbn [rthen].
      destruct (cuda X Y a), (load_all X Y a); reflexivity.
  Qed.

  Variable default_object : kind -> nat.
  Notation construct := (construct X Y W cast castY coords emb item_ update custom_rate perm draws unif fuel default_object).
  (** The dictionary that is used is the one given, or else the default of the class: the result depends on the contents of no other dictionary, and no other is changed. *)
  Theorem C84_given : forall k given o nd a w s, (given = Some o \/ given = None /\ o = default_object k) ->
    (forall o', o' <> o -> fst (construct k s given nd a w) o' = s o')
    /\ forall s2, s2 o = s o -> snd (construct k s2 given nd a w) = snd (construct k s given nd a w) /\ fst (construct k s2 given nd a w) o = fst (construct k s given nd a w) o.
  Proof.
    intros k given o nd a w s Hg. assert (EC : forall s, construct k s given nd a w = routine k s o nd a w). { intros s0. destruct Hg as [->|[-> ->]]; reflexivity. }
    assert (EF : forall s, fst (routine k s o nd a w) = fst (prepare k s o a)) by (intros s0; unfold M_NNTrain.routine; destruct (prepare k s0 o a) as [s' [u|e]]; reflexivity).
    assert (ES : forall s, snd (routine k s o nd a w) = match snd (prepare k s o a) with Ok u => snd (routine k s o nd a w) | Err e => Err e end) by (intros s0; unfold M_NNTrain.routine; destruct (prepare k s0 o a) as [s' [u|e]]; reflexivity).
    split.
    - intros o' Ho. rewrite EC, EF. unfold M_NNTrain.prepare. destruct (make _ _ _ _) as [d|]; [|reflexivity].
      destruct (samples_val X Y a), (labs_val X Y a); try reflexivity; [destruct (make _ _ _ _) as [d'|]; [|reflexivity]|]; cbn [rthen fst]; unfold supd; destruct (Nat.eqb_spec o' o); congruence.
    - intros s2 E. rewrite !EC. assert (EP : snd (prepare k s2 o a) = snd (prepare k s o a) /\ fst (prepare k s2 o a) o = fst (prepare k s o a) o).
      { unfold M_NNTrain.prepare. rewrite E. destruct (make _ _ _ _) as [d|]; [|split; [reflexivity|exact E]].
        destruct (samples_val X Y a), (labs_val X Y a); try (split; [reflexivity|exact E]); [destruct (make _ _ _ _) as [d'|]; [|split; [reflexivity|exact E]]|]; cbn [rthen fst snd]; unfold supd; rewrite Nat.eqb_refl; split; reflexivity. }
      destruct EP as [E1 E2]. split; [|rewrite !EF; exact E2]. unfold M_NNTrain.routine. destruct (prepare k s2 o a) as [s2' r2], (prepare k s o a) as [s' r]. cbn [snd] in E1. subst r2. destruct r; reflexivity.
  Qed.
End Options.
Print Assumptions C84_options.
Print Assumptions C84_given.

(** Shuffle given by the caller; a negative number of workers; both in order. *)
Definition ex_options (kw : kwargs) (b : nat) := snd (ex_routine FP (fun _ => kw) 7 Cpu (ex_args [1; 2; 3] (Pars nat [10; 20; 30]) None false b 2) 0).
Example C84_options_case : ex_options [(KDrop, 1%Z); (KShuffle, 0%Z)] 2 = Err TypeError /\ ex_options [(KWorkers, (-1)%Z)] 2 = Err ValueError /\ ex_options [] 0 = Err ValueError
  /\ ex_options [(KDrop, 1%Z); (KWorkers, 2%Z)] 2 = Ok (2, [ndiv (Fin 0) (Fin 1); ndiv (Fin 0) (Fin 1)], None)
  /\ Foreign KShuffle /\ ~ Foreign KDrop.
Proof. split; [reflexivity|]. split; [reflexivity|]. split; [reflexivity|]. split; [reflexivity|]. split; [right; left; reflexivity|]. intros [H|[H|(i & H)]]; discriminate. Qed.
(** A dictionary given to the constructor is used, also where the default of the class is different. *)
Example C84_given_case : let s : store := fun o => if o =? 7 then [(KDrop, 1%Z)] else [] in let a := ex_args [1; 2; 3] (Pars nat [10; 20; 30]) None false 2 1 in
  snd (ex_construct FP s (Some 7) Cpu a 0) = Ok (1, [ndiv (Fin 0) (Fin 1)], None) /\ snd (ex_construct FP s None Cpu a 0) = Ok (2, [ndiv (Fin 0) (Fin 2)], None).
Proof. split; reflexivity. Qed.
