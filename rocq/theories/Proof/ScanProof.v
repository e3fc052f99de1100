(** Systematic scan: which coordinates the Gibbs and block Gibbs samplers visit. *)
From Coq Require Import Reals List Lia Arith.
From Verif.Model Require Import Gibbs.
Import ListNotations.

Lemma gibbs_iter_state d C n : (0 < d)%nat ->
  Nat.iter n (gibbs_update d C) g_init = {| g_steps := n; g_index := n mod d; g_ll := n * C |}.
Proof.
  intros Hd. induction n as [|n IH]; simpl.
  - unfold g_init. rewrite Nat.mod_0_l by lia. reflexivity.
  - rewrite IH. unfold gibbs_update. cbn [g_steps g_index g_ll]. f_equal; [|lia].
    rewrite Nat.add_mod_idemp_l by lia. f_equal. lia.
Qed.

Lemma block_iter_state d C b n : (0 < d)%nat ->
  Nat.iter n (block_update d C b) g_init = {| g_steps := n; g_index := (n * b) mod d; g_ll := n * C ^ b |}.
Proof.
  intros Hd. induction n as [|n IH]; simpl.
  - unfold g_init. rewrite Nat.mod_0_l by lia. reflexivity.
  - rewrite IH. unfold block_update. cbn [g_steps g_index g_ll]. f_equal; [|lia].
    rewrite Nat.add_mod_idemp_l by lia. f_equal. lia.
Qed.

(** In a window of [d] consecutive numbers every residue occurs exactly once. *)
Lemma residue_window d n i : (i < d)%nat ->
  exists t, n <= t < n + d /\ t mod d = i /\ forall t', n <= t' < n + d -> t' mod d = i -> t' = t.
Proof.
  intros Hi. assert (Hd : d <> 0) by lia.
  pose proof (Nat.div_mod n d Hd) as Hn. pose proof (Nat.mod_upper_bound n d Hd) as Hb.
  set (q := n / d) in *. set (r := n mod d) in *.
  assert (Huniq : forall t1 t2, n <= t1 < n + d -> n <= t2 < n + d -> t1 mod d = t2 mod d -> t1 = t2).
  { intros t1 t2 H1 H2 H. pose proof (Nat.div_mod t1 d Hd). pose proof (Nat.div_mod t2 d Hd).
    assert (t1 / d = t2 / d); [|nia].
    destruct (Nat.lt_trichotomy (t1 / d) (t2 / d)) as [Hlt|[He|Hlt]]; auto; nia. }
  destruct (Nat.le_gt_cases r i) as [Hle|Hgt].
  - exists (d * q + i). split; [lia|]. assert (Hm : (d * q + i) mod d = i).
    { rewrite Nat.add_comm, Nat.mul_comm, Nat.mod_add, Nat.mod_small; auto. }
    split; auto. intros t' Ht' He. apply Huniq; try lia.
  - exists (d * S q + i). split; [nia|]. assert (Hm : (d * S q + i) mod d = i).
    { rewrite Nat.add_comm, Nat.mul_comm, Nat.mod_add, Nat.mod_small; auto. }
    split; auto. intros t' Ht' He. apply Huniq; nia.
Qed.

Lemma block_prefix_cover d b i : (0 < b)%nat -> (i < d)%nat ->
  exists t, t < (d + b - 1) / b /\ (t * b) mod d <= i < (t * b) mod d + b.
Proof.
  intros Hb Hi. exists (i / b). pose proof (Nat.div_mod i b ltac:(lia)) as H.
  pose proof (Nat.mod_upper_bound i b ltac:(lia)) as H'.
  split.
  - apply Nat.div_lt_upper_bound; [lia|].
    pose proof (Nat.div_mod (d + b - 1) b ltac:(lia)). pose proof (Nat.mod_upper_bound (d + b - 1) b ltac:(lia)). lia.
  - rewrite Nat.mod_small by nia. nia.
Qed.

(** Every multiple of gcd is reached as a start within a window of d/gcd steps. *)
Lemma block_starts d b n m : (0 < b)%nat -> (0 < d)%nat -> (m * Nat.gcd d b < d)%nat ->
  exists t, n <= t < n + d / Nat.gcd d b /\ (t * b) mod d = m * Nat.gcd d b.
Proof.
  intros Hb Hd Hm. set (g := Nat.gcd d b) in *.
  assert (Hgd : Nat.divide g d) by apply Nat.gcd_divide_l.
  assert (Hgb : Nat.divide g b) by apply Nat.gcd_divide_r.
  destruct Hgd as [p Hp], Hgb as [r Hr].
  assert (Hg : 0 < g) by (destruct (Nat.eq_dec g 0) as [H0|H0]; [rewrite H0 in Hp|]; lia).
  assert (Hp0 : 0 < p) by nia.
  assert (Hpd : d / g = p) by (rewrite Hp; apply Nat.div_mul; lia). rewrite Hpd.
  assert (Hbez : exists u v, u * b = g + v * d).
  { destruct (Nat.gcd_bezout_pos b d Hb) as (u & v & H). exists u, v.
    rewrite Nat.gcd_comm in H. exact H. }
  destruct Hbez as (u & v & Hu).
  assert (H0 : ((u * m) * b) mod d = m * g).
  { replace ((u * m) * b) with (m * g + (m * v) * d) by nia. rewrite Nat.mod_add, Nat.mod_small; lia. }
  destruct (residue_window p n ((u * m) mod p)) as (t & Ht & Htm & _); [apply Nat.mod_upper_bound; lia|].
  exists t. split; auto. rewrite <- H0.
  assert (Hpb : p * b = r * d) by nia.
  assert (A : forall k s, ((p * k + s) * b) mod d = (s * b) mod d).
  { intros k s. replace ((p * k + s) * b) with (s * b + (k * r) * d) by nia. apply Nat.mod_add; lia. }
  assert (B : forall a, (a * b) mod d = ((a mod p) * b) mod d).
  { intros a. rewrite (Nat.div_mod a p) at 1 by lia. apply A. }
  rewrite (B t), (B (u * m)), Htm. reflexivity.
Qed.

Lemma block_window_cover d b n i : (0 < b)%nat -> (i < d)%nat ->
  exists t, n <= t < n + d / Nat.gcd d b /\ (t * b) mod d <= i < (t * b) mod d + b.
Proof.
  intros Hb Hi. set (g := Nat.gcd d b).
  assert (Hg : 0 < g).
  { destruct (Nat.eq_dec g 0) as [H|H]; [|lia]. apply Nat.gcd_eq_0 in H. lia. }
  pose proof (Nat.div_mod i g ltac:(lia)). pose proof (Nat.mod_upper_bound i g ltac:(lia)).
  destruct (block_starts d b n (i / g)) as (t & Ht & He); [auto|lia|fold g; nia|].
  exists t. split; auto. rewrite He. fold g.
  assert (g <= b) by (apply Nat.divide_pos_le; [auto|apply Nat.gcd_divide_r]). nia.
Qed.
