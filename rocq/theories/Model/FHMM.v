(** Model of discs/models/fhmm.py, one sample.  A sample is a list of l rows (time steps) of k entries (chains). *)
From Coq Require Import Reals List Arith Factorial.
From Verif.Base Require Import RSum Cube Dist XFloat.
From Verif.Model Require Import RBM.
Import ListNotations.
Local Open Scope R_scope.

(** x[:, :-1] paired with x[:, 1:], fhmm.py 82-83 and 172-173. *)
Definition pairs {A} (rows : list A) : list (A * A) := combine (removelast rows) (tl rows).

(** ** Binary *)
(** fhmm.py 63-64. *)
Definition log_px (p x : R) : R := ln p * x + ln (1 - p) * (1 - x).
(** 84. *)
Definition x_change (cur next : R) : R := cur * (1 - next) + (1 - cur) * next.
(** 85-87. *)
Definition bin_logp_x (alpha beta : R) (rows : list (list nat)) : R :=
  rsum (hd [] rows) (fun x => log_px alpha (INR x))
  + rsum (pairs rows) (fun rr => rsum (combine (fst rr) (snd rr)) (fun ab => log_px (1 - beta) (x_change (INR (fst ab)) (INR (snd ab))))).
(** 78-80. *)
Definition bin_logp_y (sigma b : R) (w y : list R) (rows : list (list nat)) : R :=
  - rsum (combine rows y) (fun ry => (snd ry - rsum (combine (fst ry) w) (fun xw => INR (fst xw) * snd xw) - b) ^ 2) / (2 * sigma ^ 2).
(** 73-89. *)
Definition bin_forward (alpha beta sigma b : R) (w y : list R) (rows : list (list nat)) : R :=
  bin_logp_x alpha beta rows + bin_logp_y sigma b w y rows.
(** 51-58 [sample_X]. *)
Fixpoint bin_sample_rest (beta : R) (n : nat) (row : list nat) : dist (list (list nat)) :=
  match n with
  | O => ret []
  | S n' => bind (bern_vec (map (fun x => beta * INR x + (1 - beta) * (1 - INR x)) row)) (fun r => dmap (cons r) (bin_sample_rest beta n' r))
  end.
Definition bin_sample_X (alpha beta : R) (l k : nat) : dist (list (list nat)) :=
  bind (bern_vec (map (fun o => o * alpha) (repeat 1 k))) (fun r => dmap (cons r) (bin_sample_rest beta (l - 1) r)).
(** 63-64 in extended floats. *)
Definition log_px_xf (p x : R) : xf := xadd (xmul (xlog (Fin p)) (Fin x)) (xmul (xlog (Fin (1 - p))) (Fin (1 - x))).

(** ** Categorical *)
Section Categ.
Variable n : nat.
(** 97-100: the transition table. *)
Definition trans_table (beta : R) (i j : nat) : R :=
  let m := if Nat.eqb i j then beta - (1 - beta) / (INR n - 1) else 0 in
  m + (1 - m) / (INR n - 1).
(** one-hot entries (0 or 1). *)
Definition hotn (x c : nat) : nat := if Nat.eqb x c then 1%nat else 0%nat.
(** lgamma(m + 1) at an integer m: log of m!. *)
Definition lgamma1 (m : nat) : R := ln (INR (fact m)).
(** 154-158. *)
Definition log_px_categ (alpha : nat -> R) (x : nat) : R :=
  lgamma1 (list_sum (map (hotn x) (seq 0 n))) - rsum (seq 0 n) (fun c => lgamma1 (hotn x c)) + rsum (seq 0 n) (fun c => INR (hotn x c) * alpha c).
(** 175-184. *)
Definition cat_logp_x (beta : R) (rows : list (list nat)) : R :=
  rsum (pairs rows) (fun rr => rsum (combine (fst rr) (snd rr)) (fun ab =>
    rsum (seq 0 n) (fun c => rsum (seq 0 n) (fun c' => INR (hotn (fst ab) c) * INR (hotn (snd ab) c') * ln (trans_table beta c c'))))).
(** 185-187; w is indexed by chain and category. *)
Definition cat_logp_y (sigma b : R) (w : nat -> nat -> R) (k : nat) (y : list R) (rows : list (list nat)) : R :=
  - rsum (combine rows y) (fun ry => (snd ry - rsum (seq 0 k) (fun i => rsum (seq 0 n) (fun c => INR (hotn (nth i (fst ry) 0%nat) c) * w i c)) - b) ^ 2)
  / (2 * sigma ^ 2).
(** 160-189. *)
Definition cat_forward (alpha : nat -> R) (beta sigma b : R) (w : nat -> nat -> R) (k : nat) (y : list R) (rows : list (list nat)) : R :=
  cat_logp_x beta rows + cat_logp_y sigma b w k y rows + rsum (hd [] rows) (log_px_categ alpha).
(** 116-118: the initial probabilities from uniform draws u. *)
Definition init_alpha (alpha : R) (u : nat -> R) (c : nat) : R :=
  match c with O => 1 - alpha | S _ => alpha * u c / rsum (seq 1 (n - 1)) u end.
(** 132-146 [sample_X]; the one-hot row times the table selects a row of the table. *)
Definition cat_row (logits : nat -> nat -> R) (row : list nat) : dist (list nat) := indep (map (fun x => categorical (map (logits x) (seq 0 n))) row).
Fixpoint cat_sample_rest (beta : R) (m : nat) (row : list nat) : dist (list (list nat)) :=
  match m with
  | O => ret []
  | S m' => bind (cat_row (fun x c' => ln (rsum (seq 0 n) (fun c => INR (hotn x c) * trans_table beta c c'))) row)
             (fun r => dmap (cons r) (cat_sample_rest beta m' r))
  end.
Definition cat_sample_X (alpha_logits : nat -> R) (beta : R) (l k : nat) : dist (list (list nat)) :=
  bind (cat_row (fun _ c => alpha_logits c) (repeat 0%nat k)) (fun r => dmap (cons r) (cat_sample_rest beta (l - 1) r)).
(** 168-170: an integer sample batch of shape (B, l, k) is expanded to one-hot only if k differs from the number of categories; then
    everything is reshaped to (-1, l, k, n).  The number of energies returned; [None] is a shape error. *)
Definition cat_num_energies (B l k : nat) : option nat :=
  let total := (if Nat.eqb k n then B * l * k else B * l * k * n)%nat in
  if Nat.eqb (total mod (l * k * n)) 0 then Some (total / (l * k * n))%nat else None.
End Categ.
