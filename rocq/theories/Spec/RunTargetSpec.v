(** The distributions the settings of a classical model describe, as unnormalised weights of a flat sample. *)
From Coq Require Import String List Reals ZArith Arith.
From Verif.Base Require Import RSum Cube.
From Verif.Spec Require Import Grid Latent InitField.
From Verif.Model Require Import Launch FullRun RunTarget.
Import ListNotations.
Local Open Scope string_scope.
Local Open Scope R_scope.

(** The number a setting denotes. *)
Definition setting (m : table lit) (k : string) : R :=
  match look k m with Some (LFloat z s) => IZR z / 10 ^ s | Some (LInt z) => IZR z | _ => 0 end.
Definition shape (m : table lit) : list nat := match look "shape" m with Some (LTuple l) => map Z.to_nat l | _ => [] end.
Definition categories (m : table lit) : nat := match look "num_categories" m with Some (LInt z) => Z.to_nat z | _ => 0%nat end.

Section Weights.
(** The random parameters: standard normal or uniform numbers, by place. *)
Variable u : nat -> nat -> nat -> R.
Definition site (w : nat) (x : list nat) (i j : nat) : nat := nth (i * w + j) x 0%nat.
(** Independent coins: log-odds sigma * normal. *)
Definition coins (sigma : R) (x : list nat) : R := rprod (seq 0 (length x)) (fun i => if Nat.eqb (nth i x 0%nat) 1 then exp (sigma * u i 0%nat 0%nat) else 1).
(** Independent dice. *)
Definition dice (sigma : R) (x : list nat) : R := rprod (seq 0 (length x)) (fun i => exp (sigma * u i (nth i x 0%nat) 0%nat)).
(** The field: [mu] in the disc, [- mu] outside, plus noise uniform in (- sigma, sigma). *)
Definition field (h w : nat) (mu sigma : R) (i j c : nat) : R :=
  (if Rlt_dec (from_middle h w i j) (sqrt (/ (2 * PI))) then mu else - mu) + sigma * (2 * u i j c - 1).
(** Spins against the field, with coupling [la]. *)
Definition spins (h w : nat) (la mu sigma : R) (x : list nat) : R :=
  exp (la * (INR (equal_pairs h w (site w x)) - INR (unequal_pairs h w (site w x)))
       - rsum (cells h w) (fun c => field h w mu sigma (fst c) (snd c) 0%nat * (2 * INR (site w x (fst c) (snd c)) - 1))).
Definition colours (h w : nat) (la mu sigma : R) (x : list nat) : R :=
  exp (la * INR (equal_pairs h w (site w x)) - rsum (cells h w) (fun c => field h w mu sigma (fst c) (snd c) (site w x (fst c) (snd c)))).
End Weights.

(** Hidden Markov chains: the hidden path times the density of the observations [y] (up to a constant); [level t] is the mean of
    observation t. *)
Definition hidden (p0 : nat -> R) (tr : nat -> nat -> R) (l k : nat) (sigma : R) (y : nat -> R) (level : (nat -> nat) -> R) (x : list nat) : R :=
  path_prob p0 tr (map (fun t => map (fun i => nth (t * k + i) x 0%nat) (seq 0 k)) (seq 0 l))
  * rprod (seq 0 l) (fun t => exp (- (y t - level (fun i => nth (t * k + i) x 0%nat)) ^ 2 / (2 * sigma ^ 2))).

(** The mean of an observation in terms of the hidden values at its time. *)
Definition bin_level (k : nat) (p : draws) (v : nat -> nat) : R := d_b p + rsum (seq 0 k) (fun i => if Nat.eqb (v i) 1 then d_w p i 0%nat else 0).
Definition cat_level (k : nat) (p : draws) (v : nat -> nat) : R := d_b p + rsum (seq 0 k) (fun i => d_w p i (v i)).
(** Observation t: the mean for the hidden path that was drawn, plus noise of standard deviation sigma. *)
Definition observed (level : (nat -> nat) -> R) (sigma : R) (p : draws) (t : nat) : R := level (fun i => nth i (nth t (d_path p) []) 0%nat) + sigma * d_noise p t.
(** First category with probability 1 - alpha, the others share alpha in random proportions. *)
Definition first_law (C : nat) (alpha : R) (p : draws) (c : nat) : R :=
  if Nat.eqb c 0 then 1 - alpha else alpha * (d_alpha p c / rsum (seq 1 (C - 1)) (d_alpha p)).
Definition paths (C l k : nat) (sigma alpha q : R) (p : draws) : list nat -> R :=
  if Nat.eqb C 2 then hidden (one_with alpha) (stay q) l k sigma (observed (bin_level k p) sigma p) (bin_level k p)
  else hidden (first_law C alpha p) (stay_cat C q) l k sigma (observed (cat_level k p) sigma p) (cat_level k p).

(** The distribution that the model section [m] describes, with the random parameters [p]. *)
Definition weight (name : string) (m : table lit) (p : draws) : list nat -> R :=
  let n := setting m in
  let (a, b) := match shape m with [a; b] => (a, b) | _ => (0, 0)%nat end in
  if String.eqb name "bernoulli" then coins (d_field p) (n "init_sigma")
  else if String.eqb name "categorical" then dice (d_field p) (n "init_sigma")
  else if String.eqb name "ising" then spins (d_field p) a b (n "lambdaa") (n "mu") (n "init_sigma")
  else if String.eqb name "potts" then colours (d_field p) a b (n "lambdaa") (n "mu") (n "init_sigma")
  else paths (categories m) a b (n "sigma") (n "alpha") (n "beta") p.

(** Names of the classical models, the settings they need and admissible random parameters. *)
Definition classical (name : string) : Prop := In name ["bernoulli"; "categorical"; "ising"; "potts"; "fhmm"]%string.
Definition is_number (m : table lit) (k : string) : Prop := exists z s, look k m = Some (LFloat z s) \/ look k m = Some (LInt z).
Definition needed (name : string) : list string :=
  if String.eqb name "fhmm" then ["sigma"; "alpha"; "beta"]%string
  else if (String.eqb name "bernoulli" || String.eqb name "categorical")%bool then ["init_sigma"]%string else ["lambdaa"; "mu"; "init_sigma"]%string.
Definition well_formed (name : string) (m : table lit) : Prop :=
  Forall (is_number m) (needed name) /\ (exists C, look "num_categories" m = Some (LInt C) /\ (2 <= C)%Z) /\
  (exists l, look "shape" m = Some (LTuple l)) /\
  (name = "bernoulli"%string -> categories m = 2%nat) /\ (name = "ising"%string -> categories m = 2%nat) /\
  (name = "ising" \/ name = "potts" \/ name = "fhmm" -> length (shape m) = 2%nat)%string /\
  (2 <= fold_right Nat.mul 1 (shape m))%nat /\
  (name = "fhmm"%string -> 0 < setting m "alpha" < 1 /\ 0 < setting m "beta" < 1).
Definition drawn (m : table lit) (p : draws) : Prop :=
  (forall c, 0 < d_alpha p c) /\ Forall (Forall (fun v => (v < categories m)%nat)) (d_path p).

(** When the code is expected to sample the described distribution: not an Ising model with a coupling that is not a whole number under
    the samplers that evaluate integer samples, not hidden chains with more than two categories. *)
Definition faithful (name : string) (m : table lit) (k : sampler) : Prop :=
  (name = "ising"%string -> match k with SGibbs | SBlock _ | SHamming _ | SWalk _ => exists z, setting m "lambdaa" = IZR z | _ => True end) /\
  (name = "fhmm"%string -> categories m = 2%nat).

(** The probability with which the hidden chains of more than two categories in fact keep their value when [beta] is configured. *)
Definition effective_stay (C : nat) (beta : R) : R :=
  let r := INR C - 1 in let m := beta - (1 - beta) / r in let d := m + (1 - m) / r in d / (1 + d).

(** The two sampler objects that need not keep the target (C73_hamming_ball_refuted, C73_categorical_gwg_refuted). *)
Definition biased (k : sampler) : Prop := match k with SHamming _ | SGwgCat _ => True | _ => False end.
