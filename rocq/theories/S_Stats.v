(** Specification vocabulary for the summary statistics (C35). *)
From Coq Require Import Reals.
From Verif Require Import M_Base M_Num M_XReal M_Stats.
Open Scope nat_scope.

(** every row has as many entries as there are columns *)
Definition Rect (m : mat) : Prop := Forall (fun row => length row = mcols m) (mrows m).
(** networks return vectors of the declared size *)
Definition net_ok (k : kind) : Prop := match k with Embed p q f => forall row, length row = p -> length (f row) = q | _ => True end.
Fixpoint nets_ok (s : stats) : Prop := match s with mkstats k _ _ _ prev => net_ok k /\ match prev with Some s' => nets_ok s' | None => True end end.

(** [e] is the polynomial expansion of [m]: block k of the columns has the k-th powers, then come the products of the pairs of different columns *)
Definition Expanded (d : nat) (c : bool) (m e : mat) : Prop :=
  let p := mcols m in
  let D := Nat.max d 1 in
  mcols e = p * D + (if c then p * (p - 1) / 2 else 0)
  /\ length (mrows e) = length (mrows m)
  /\ forall i row, nth_error (mrows m) i = Some row ->
     exists out, nth_error (mrows e) i = Some out /\ length out = mcols e
     /\ (forall k j x, k < D -> nth_error row j = Some x -> nth_error out (k * p + j) = Some (Nat.iter k (xmul x) x))
     /\ (c = true -> forall a b x y, a < b -> nth_error row a = Some x -> nth_error row b = Some y ->
           nth_error out (p * D + a * (2 * p - a - 1) / 2 + (b - a - 1)) = Some (xmul x y)).

(** [out] is [e] with column j divided by the j-th stored deviation *)
Definition Rescaled (sd : option (list xr)) (e out : mat) : Prop :=
  match sd with
  | None => out = e
  | Some s => mcols out = mcols e /\ length s = mcols e /\ length (mrows out) = length (mrows e)
      /\ forall i row, nth_error (mrows e) i = Some row -> exists r, nth_error (mrows out) i = Some r /\ length r = length row
         /\ forall j x t, nth_error row j = Some x -> nth_error s j = Some t -> nth_error r j = Some (xdiv x t)
  end.

(** sums, means and deviations of real vectors *)
Definition total (l : list R) : R := fold_right Rplus 0%R l.
Definition average (l : list R) : R := (total l / INR (length l))%R.
Definition deviation (l : list R) : R := sqrt (average (map (fun x => (x - average l) ^ 2)%R l)).
