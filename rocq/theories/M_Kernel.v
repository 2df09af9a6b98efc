(** Model of abcpy/perturbationkernel.py.  Values of a kernel's models are numbers or one-dimensional arrays; numbers are exact rationals. *)
From Coq Require Import Qabs.
From Verif Require Import M_Base M_Num M_Graph M_Infer M_Journal M_APM.

(** entry of a row of kernel_parameters_bds: a number or an array *)
Inductive kval := KS (q : Q) | KA (l : list Q).

(* np.array(row).astype(float) for a row starting with a number, np.concatenate(row) otherwise, with the isinstance test on row[0]
   (perturbationkernel.py:264-270, 303-319): a row that mixes the two kinds is refused with an error of numpy (recorded as ValueError).
   Simplification: MultivariateNormalKernel.update converts all rows of the population before taking one (309). *)
Fixpoint all_scalars (row : list kval) : res (list Q) :=
  match row with
  | [] => Ok []
  | KS q :: row' => match all_scalars row' with Ok l => Ok (q :: l) | Err e => Err e end
  | KA _ :: _ => Err ValueError
  end.
Fixpoint all_arrays (row : list kval) : res (list (list Q)) :=
  match row with
  | [] => Ok []
  | KA l :: row' => match all_arrays row' with Ok r => Ok (l :: r) | Err e => Err e end
  | KS _ :: _ => Err ValueError
  end.
(* perturbationkernel.py:323-325, 334  np.split(flat, cumsum of the sizes)[:-1] *)
Fixpoint pieces (sizes : list nat) (flat : list Q) : list kval :=
  match sizes with [] => [] | n :: sizes' => KA (firstn n flat) :: pieces sizes' (skipn n flat) end.

Section Kernel.
Variables C Rng D : Type.

(** a kernel: its models; update of a row given the entry of the covariance list (None: list too short); density *)
Record kernel (V : Type) := mkkernel {
  k_models : list nat;
  k_upd : option C -> list V -> Rng -> Rng * res (list V);
  k_pdf : option C -> list V -> list V -> res D }.
Arguments k_models {V} _.
Arguments k_upd {V} _ _ _ _.
Arguments k_pdf {V} _ _ _ _.

(** ** kernels that move a whole vector: rng.multivariate_normal (308-313, 329-334), or that plus division by the root of a chi-square (436-446,
    457-467): [draw mean cov rng] *)
Section Vector.
Variable draw : list Q -> C -> Rng -> Rng * res (list Q).
Variable dens : list Q -> C -> list Q -> res D.
(* perturbationkernel.py:279-336, 404-469 *)
Definition vec_update (cov : option C) (row : list kval) (r : Rng) : Rng * res (list kval) :=
  match row with
  | [] => (r, Err IndexError)
  | KS _ :: _ =>
      match cov, all_scalars row with
      | None, _ => (r, Err IndexError)
      | _, Err e => (r, Err e)
      | Some c, Ok mean =>
          match draw mean c r with (r', Ok v) => (r', Ok (map KS v)) | (r', Err e) => (r', Err e) end
      end
  | KA _ :: _ =>
      match all_arrays row, cov with
      | Err e, _ => (r, Err e)
      | _, None => (r, Err IndexError)
      | Ok ls, Some c =>
          match draw (concat ls) c r with (r', Ok v) => (r', Ok (pieces (map (@length Q) ls) v)) | (r', Err e) => (r', Err e) end
      end
  end.
(** the numbers in a row, whatever its structure *)
Definition flat (row : list kval) : res (list Q) :=
  match row with
  | [] => Err IndexError
  | KS _ :: _ => all_scalars row
  | KA _ :: _ => match all_arrays row with Ok ls => Ok (concat ls) | Err e => Err e end
  end.
(* perturbationkernel.py:338-357, 471-524 *)
Definition vec_pdf (cov : option C) (mean x : list kval) : res D :=
  match flat mean with
  | Err e => Err e
  | Ok m =>
      match cov with
      | None => Err IndexError
      | Some c =>
          match (match mean with KA _ :: _ => (match all_arrays x with Ok ls => Ok (concat ls) | Err e => Err e end) | _ => all_scalars x end) with
          | Err e => Err e
          | Ok v => dens m c v
          end
      end
  end.
Definition vec_kernel (models : list nat) : kernel kval := mkkernel kval models vec_update vec_pdf.
End Vector.

(** ** RandomWalkKernel (527-628); [rint n r] is a draw of rng.randint from 0, ..., n-1.  Discrete values are integers stored as rationals. *)
Section Walk.
Variable rint : nat -> Rng -> Rng * nat.
Variable ofq : Q -> D.
Variable jump : Z.
Open Scope Z_scope.
(* rng.randint(v - jump, v + jump + 1) *)
Definition step1 (v : Q) (r : Rng) : Rng * res Q :=
  if 2 * jump + 1 <=? 0 then (r, Err ValueError)
  else let '(r', k) := rint (Z.to_nat (2 * jump + 1)) r in (r', Ok (v - inject_Z jump + inject_Z (Z.of_nat k))%Q).
(* perturbationkernel.py:571-576, 586-593 *)
Fixpoint steps (l : list Q) (r : Rng) : Rng * res (list Q) :=
  match l with
  | [] => (r, Ok [])
  | v :: l' =>
      match step1 v r with
      | (r', Err e) => (r', Err e)
      | (r', Ok w) => match steps l' r' with (r'', Ok ws) => (r'', Ok (w :: ws)) | (r'', Err e) => (r'', Err e) end
      end
  end.
(* perturbationkernel.py:541-597 *)
Definition walk_update (cov : option C) (row : list kval) (r : Rng) : Rng * res (list kval) :=
  match row with
  | [] => (r, Err IndexError)
  | KS _ :: _ =>
      match all_scalars row with
      | Err e => (r, Err e)
      | Ok l => match steps l r with (r', Ok v) => (r', Ok (map KS v)) | (r', Err e) => (r', Err e) end
      end
  | KA _ :: _ =>
      match all_arrays row with
      | Err e => (r, Err e)
      | Ok ls => match steps (concat ls) r with (r', Ok v) => (r', Ok (pieces (map (@length Q) ls) v)) | (r', Err e) => (r', Err e) end
      end
  end.
(* perturbationkernel.py:625  np.abs(mean[0] - x[0]) > self.jump, as the condition of an if: an array of two or more entries has no truth value;
   one entry is broadcast; arrays of different sizes do not subtract *)
Definition far (m x : kval) : res bool :=
  let gt a b := negb (Qle_bool (Qabs.Qabs (a - b)) (inject_Z jump)) in
  match m, x with
  | KS a, KS b | KS a, KA [b] | KA [a], KS b | KA [a], KA [b] => Ok (gt a b)
  | KA [], KS _ | KS _, KA [] | KA [], KA [] | KA [], KA [_] | KA [_], KA [] => Ok false
  | _, _ => Err ValueError
  end.
(* perturbationkernel.py:607-628 *)
Definition walk_pmf (cov : option C) (mean x : list kval) : res D :=
  match mean, x with
  | m :: _, y :: _ =>
      match far m y with
      | Err e => Err e
      | Ok true => Ok (ofq 0)
      | Ok false => Ok (ofq (1 / inject_Z (2 * jump + 1)))
      end
  | _, _ => Err IndexError
  end.
Definition walk_kernel (models : list nat) : kernel kval := mkkernel kval models walk_update walk_pmf.
End Walk.

(** ** JointPerturbationKernel (110-237) *)
Section Joint.
Variable V : Type.
Variables (one : D) (mul : D -> D -> D).
(* perturbationkernel.py:145-162 *)
Fixpoint check_models (ms : list nat) (seen : list nat) : res (list nat) :=
  match ms with [] => Ok seen | m :: ms' => if memb m seen then Err ValueError else check_models ms' (seen ++ [m]) end.
Fixpoint check_kernels (ks : list (kernel V)) (seen : list nat) : res (list nat) :=
  match ks with [] => Ok seen | k :: ks' => match check_models (k_models k) seen with Ok seen' => check_kernels ks' seen' | Err e => Err e end end.
(* perturbationkernel.py:122-123 *)
Definition joint_init (ks : list (kernel V)) : res (list (kernel V)) := match check_kernels ks [] with Ok _ => Ok ks | Err e => Err e end.
(* perturbationkernel.py:185-187  every kernel perturbs row [row_index] of its own entry of kernel_parameters_bds *)
Fixpoint update_all (ki : nat) (ks : list (kernel V)) (kparams : list (list (list V))) (covs : list C) (row : nat) (r : Rng) : Rng * res (list (list V)) :=
  match ks with
  | [] => (r, Ok [])
  | k :: ks' =>
      match nth_error kparams ki with
      | None => (r, Err IndexError)
      | Some rows =>
          match nth_error rows row with
          | None => (r, Err IndexError)
          | Some vals =>
              match k_upd k (nth_error covs ki) vals r with
              | (r', Err e) => (r', Err e)
              | (r', Ok v) => match update_all (S ki) ks' kparams covs row r' with (r'', Ok vs) => (r'', Ok (v :: vs)) | (r'', Err e) => (r'', Err e) end
              end
          end
      end
  end.
(* perturbationkernel.py:194-200  index counts the models of the kernel *)
Fixpoint pair_models (ms : list nat) (index : nat) (vals : list V) : res (list (nat * list V)) :=
  match ms with
  | [] => Ok []
  | m :: ms' =>
      match nth_error vals index with
      | None => Err IndexError
      | Some v => match pair_models ms' (S index) vals with Ok l => Ok ((m, [v]) :: l) | Err e => Err e end
      end
  end.
(* perturbationkernel.py:189-202 *)
Fixpoint pair_all (ks : list (kernel V)) (vals : list (list V)) : res (list (nat * list V)) :=
  match ks, vals with
  | [], _ => Ok []
  | k :: ks', v :: vals' =>
      match pair_models (k_models k) 0 v with
      | Err e => Err e
      | Ok l => match pair_all ks' vals' with Ok l' => Ok (l ++ l') | Err e => Err e end
      end
  | _ :: _, [] => Err IndexError
  end.
(* perturbationkernel.py:164-202 *)
Definition joint_update (ks : list (kernel V)) (kparams : list (list (list V))) (covs : list C) (row : nat) (r : Rng) : Rng * res (list (nat * list V)) :=
  match update_all 0 ks kparams covs row r with
  | (r', Err e) => (r', Err e)
  | (r', Ok vals) => (r', pair_all ks vals)
  end.
(* perturbationkernel.py:229-233  for model, model_output_index in mapping: if kernel_model == model *)
Fixpoint pick (m : nat) (mapping : list (nat * nat)) (x : list V) : res (list V) :=
  match mapping with
  | [] => Ok []
  | (pm, i) :: mapping' =>
      if m =? pm then
        match nth_error x i with
        | None => Err IndexError
        | Some v => match pick m mapping' x with Ok l => Ok (v :: l) | Err e => Err e end
        end
      else pick m mapping' x
  end.
Fixpoint pick_all (ms : list nat) (mapping : list (nat * nat)) (x : list V) : res (list V) :=
  match ms with
  | [] => Ok []
  | m :: ms' => match pick m mapping x with Err e => Err e | Ok a => match pick_all ms' mapping x with Ok b => Ok (a ++ b) | Err e => Err e end end
  end.
(* perturbationkernel.py:204-237 *)
Fixpoint joint_pdf_from (ki : nat) (ks : list (kernel V)) (mapping : list (nat * nat)) (covs : list C) (mean x : list V) (result : D) : res D :=
  match ks with
  | [] => Ok result
  | k :: ks' =>
      match pick_all (k_models k) mapping x, pick_all (k_models k) mapping mean with
      | Err e, _ | _, Err e => Err e
      | Ok theta, Ok mk =>
          match k_pdf k (nth_error covs ki) mk theta with
          | Err e => Err e
          | Ok d => joint_pdf_from (S ki) ks' mapping covs mean x (mul result d)
          end
      end
  end.
Definition joint_pdf (ks : list (kernel V)) (mapping : list (nat * nat)) (covs : list C) (mean x : list V) : res D :=
  joint_pdf_from 0 ks mapping covs mean x one.
(* what every scheme does before perturbing, e.g. inferences.py:862-868: kernel_parameters = [apm.get_accepted_parameters_bds_values(kernel.models) for
   kernel in kernels] *)
Definition kernel_parameters (g : graph) (roots : list nat) (accepted : list (list V)) (ks : list (kernel V)) : M st (list (list (list V))) :=
  forM (fun k => get_accepted_parameters_bds_values g roots accepted (k_models k)) ks.
(* inferences.py:104-118  one proposal of perturb: update, then order *)
Definition proposal (g : graph) (roots : list nat) (ks : list (kernel V)) (kparams : list (list (list V))) (covs : list C) (row : nat) (r : Rng)
  : M st (Rng * list V) :=
  match joint_update ks kparams covs row r with
  | (_, Err e) => raise e
  | (r', Ok pm) => v <- get_correct_ordering g roots pm ;; ret (r', v)
  end.
End Joint.

(** ** DefaultKernel (773-799) *)
Section Default.
Variable mvn : list Q -> C -> Rng -> Rng * res (list Q).
Variable dens : list Q -> C -> list Q -> res D.
Variable rint : nat -> Rng -> Rng * nat.
Variable ofq : Q -> D.
Definition default_kernel (continuous : nat -> bool) (models : list nat) : res (list (kernel kval)) :=
  let cont := filter continuous models in
  let disc := filter (fun m => negb (continuous m)) models in
  let ck := vec_kernel mvn dens cont in
  let dk := walk_kernel rint ofq 1 disc in
  match cont, disc with
  | [], _ => joint_init kval [dk]
  | _, [] => joint_init kval [ck]
  | _, _ => joint_init kval [ck; dk]
  end.
End Default.
End Kernel.
Arguments mkkernel {C Rng D V} _ _ _.
Arguments k_models {C Rng D V} _.
Arguments k_upd {C Rng D V} _ _ _ _.
Arguments k_pdf {C Rng D V} _ _ _ _.

(** ** NetworkRandomWalkKernel (631-770).  The network gives for every node its neighbours with the value of the edge attribute. *)
Section Network.
Variable network : Z -> option (list (Z * Q)).
Definition nodes (v : Z) : res (list (Z * Q)) := match network v with Some l => Ok l | None => Err KeyError end.
(** self.network[a][b][name] *)
Definition edge (a b : Z) : res Q :=
  match network a with
  | None => Err KeyError
  | Some l => match find (fun p => Z.eqb (fst p) b) l with Some p => Ok (snd p) | None => Err KeyError end
  end.
Fixpoint edges (a : Z) (l : list (Z * Q)) : res (list Q) :=
  match l with
  | [] => Ok []
  | p :: l' => match edge a (fst p) with Err e => Err e | Ok w => match edges a l' with Ok ws => Ok (w :: ws) | Err e => Err e end end
  end.
Definition qsum (l : list Q) : Q := fold_right Qplus 0%Q l.
(** np.random.choice(nodes, 1, p=weight)[0] for a uniform number u of the global generator: the first node whose cumulative weight exceeds u *)
Fixpoint choose (l : list (Z * Q)) (u : Q) : option Z :=
  match l with [] => None | (n, w) :: l' => if Qle_bool w u then choose l' (u - w) else Some n end.
(* perturbationkernel.py:680-685 ([from] = 1) and 698-704 ([from] = the node): weights of the edges leaving node [from] *)
Definition net_step (from v : Z) (u : Q) : res Z :=
  match nodes v with
  | Err e => Err e
  | Ok l =>
      match edges from l with
      | Err e => Err e
      | Ok ws =>
          let tot := qsum ws in
          if Qeq_bool tot 0 then Err ValueError
          else let ps := map (fun w => w / tot)%Q ws in
               if existsb (fun p => negb (Qle_bool 0 p)) ps then Err ValueError
               else match choose (combine (map fst l) ps) u with Some n => Ok n | None => Err ValueError end
      end
  end.
Fixpoint net_steps (from : Z -> Z) (l : list Z) (us : list Q) : res (list Z) :=
  match l, us with
  | [], _ => Ok []
  | v :: l', u :: us' => match net_step (from v) v u with Err e => Err e | Ok n => match net_steps from l' us' with Ok ns => Ok (n :: ns) | Err e => Err e end end
  | _ :: _, [] => Err OutOfFuel
  end.
(* perturbationkernel.py:671-686  row of numbers *)
Definition net_update_scalars (l : list Z) (us : list Q) : res (list Z) := net_steps (fun _ => 1%Z) l us.
(* perturbationkernel.py:687-707  row of arrays, flattened *)
Definition net_update_arrays (ls : list (list Z)) (us : list Q) : res (list Z) := net_steps (fun v => v) (concat ls) us.
(* perturbationkernel.py:746-754, 759-767; [py]: x[ind1] is a Python int, so that "nodes_proposed == x[ind1]" is False and selects nothing *)
Definition net_factor (py : bool) (m x : Z) : res num :=
  match nodes m with
  | Err e => Err e
  | Ok l =>
      match edges m l with
      | Err e => Err e
      | Ok ws =>
          match find (fun p => Z.eqb (fst p) x) (combine (map fst l) ws) with
          | None => Ok (Fin 0)
          | Some p => if py then Err IndexError else Ok (ndiv (Fin (snd p)) (Fin (qsum ws)))
          end
      end
  end.
(* perturbationkernel.py:739-770; x shorter than mean: IndexError *)
Fixpoint net_pmf_from (py : bool) (mean x : list Z) (density : num) : res num :=
  match mean, x with
  | [], _ => Ok density
  | _ :: _, [] => Err IndexError
  | m :: mean', y :: x' => match net_factor py m y with Err e => Err e | Ok f => net_pmf_from py mean' x' (nmul density f) end
  end.
Definition net_pmf (py : bool) (mean x : list Z) : res num := match mean with [] => Err IndexError | _ => net_pmf_from py mean x (Fin 1) end.
End Network.
