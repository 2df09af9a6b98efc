(** Specification vocabulary for teams and nested execution (C72, C73). *)
From Verif Require Import M_Base M_Nested.

Section Spec.
Variables Fn Args Kw Val Pk Item : Type.
Variable exec : nat -> Fn -> Args -> Kw -> option Val.
Variable dumps : Fn -> Args -> Kw -> bool.
Variable func : Pk -> Item -> tree Fn Args Kw Val.
(** nothing goes wrong in the nested calls of a map function: they can be pickled and raise on none of the ranks 0..N *)
Inductive Calm (N : nat) : tree Fn Args Kw Val -> Prop :=
| calm_ends : Calm N Ends
| calm_nested f a k cont : dumps f a k = true -> (forall r, r <= N -> exec r f a k <> None) -> (forall v, exec 0 f a k = Some v -> Calm N (cont v)) ->
    Calm N (Nested f a k cont).
Definition calm (N : nat) (c : command Pk Item) : Prop := match c with Map p d => Calm N (func p d) | Finish => False | _ => True end.
(** the first nested calls go well, then one cannot be pickled or raises on some rank *)
Inductive Breaks (N : nat) : tree Fn Args Kw Val -> Prop :=
| breaks_here f a k cont : (dumps f a k = false \/ exists r, r <= N /\ exec r f a k = None) -> Breaks N (Nested f a k cont)
| breaks_later f a k cont v : dumps f a k = true -> (forall r, r <= N -> exec r f a k <> None) -> exec 0 f a k = Some v -> Breaks N (cont v) ->
    Breaks N (Nested f a k cont).
(** the nested calls and the broadcast values of a list of commands, in order *)
Fixpoint tree_calls (t : tree Fn Args Kw Val) : list (event Fn Args Kw) :=
  match t with
  | Ends => []
  | Nested f a k cont => ERun f a k :: match exec 0 f a k with Some v => tree_calls (cont v) | None => [] end
  end.
Definition command_events (c : command Pk Item) : list (event Fn Args Kw) :=
  match c with Map p d => tree_calls (func p d) | Broadcast id => [EWorld id] | _ => [] end.
Definition prefix {A} (l l' : list A) : Prop := exists r, l' = l ++ r.
Definition calls_done (evs : list (event Fn Args Kw)) : nat := length (filter (fun e => match e with ERun _ _ _ => true | EWorld _ => false end) evs).
(** everybody has ended *)
Definition Final (N : nat) (c : config Fn Args Kw Pk Item) : Prop :=
  la (fst c) = [] /\ lin (fst c) = false /\ forall i, 1 <= i <= N -> ws (snd c i) = WQuit /\ win (snd c i) = false.
(** executions of n steps *)
Inductive steps (N : nat) (c0 : config Fn Args Kw Pk Item) : nat -> config Fn Args Kw Pk Item -> Prop :=
| none : steps N c0 0 c0
| more n c c' : steps N c0 n c -> step exec N c c' -> steps N c0 (S n) c'.
(** the events of rank r *)
Definition events (c : config Fn Args Kw Pk Item) (r : nat) : list (event Fn Args Kw) := match r with O => lev (fst c) | _ => wev (snd c r) end.
End Spec.
Arguments Calm {Fn Args Kw Val} exec dumps N _.
Arguments calm {Fn Args Kw Val Pk Item} exec dumps func N c.
Arguments Breaks {Fn Args Kw Val} exec dumps N _.
Arguments tree_calls {Fn Args Kw Val} exec t.
Arguments command_events {Fn Args Kw Val Pk Item} exec func c.
Arguments calls_done {Fn Args Kw} evs.
Arguments Final {Fn Args Kw Pk Item} N c.
Arguments steps {Fn Args Kw Val Pk Item} exec N c0 _ _.
Arguments events {Fn Args Kw Pk Item} c r.

Section Sim.
Variables Model Rng Data : Type.
Variable forward : Model -> nat -> Rng -> Rng * Data.
(** the models are simulated one after the other, each with the generator as the one before left it *)
Inductive Threads (n : nat) : list Model -> Rng -> Rng -> list Data -> Prop :=
| threads_none g : Threads n [] g g []
| threads_one m ms g g1 g2 y ys : forward m n g = (g1, y) -> Threads n ms g1 g2 ys -> Threads n (m :: ms) g g2 (y :: ys).
End Sim.
Arguments Threads {Model Rng Data} forward n _ _ _ _.
