(** comb counts subsets, prod multiplies. *)
From Coq Require Import List Lia Arith.
From Verif.Base Require Import Cube.
From Verif.Model Require Import MathUtil.
Import ListNotations.

Fixpoint choose (n k : nat) : nat :=
  match n, k with
  | _, 0 => 1
  | 0, S _ => 0
  | S n', S k' => choose n' k' + choose n' (S k')
  end.

Lemma choose_gt n : forall k, n < k -> choose n k = 0.
Proof. induction n as [|n IH]; intros [|k] H; simpl; try lia. rewrite !IH; lia. Qed.

Lemma choose_diag n : choose n n = 1.
Proof. induction n as [|n IH]; simpl; auto. rewrite IH, choose_gt by lia. lia. Qed.

Lemma choose_fact n : forall k, k <= n -> choose n k * (fact k * fact (n - k)) = fact n.
Proof.
  induction n as [|n IH]; intros k Hk.
  - replace k with 0 by lia. reflexivity.
  - destruct k as [|k]; [cbn [choose]; rewrite Nat.sub_0_r; change (fact 0) with 1; lia|].
    cbn [choose]. change (fact (S n)) with (S n * fact n). destruct (Nat.eq_dec k n) as [->|Hne].
    + rewrite choose_diag, choose_gt, Nat.sub_diag by lia. change (fact (S n)) with (S n * fact n). change (fact 0) with 1. lia.
    + assert (H1 := IH k ltac:(lia)). assert (H2 := IH (S k) ltac:(lia)).
      replace (S n - S k) with (n - k) by lia. replace (n - k) with (S (n - S k)) in * by lia.
      change (fact (S (n - S k))) with (S (n - S k) * fact (n - S k)) in *. change (fact (S k)) with (S k * fact k) in *.
      rewrite Nat.mul_add_distr_r.
      replace (choose n k * (S k * fact k * (S (n - S k) * fact (n - S k)))) with (S k * (choose n k * (fact k * (S (n - S k) * fact (n - S k))))) by ring.
      replace (choose n (S k) * (S k * fact k * (S (n - S k) * fact (n - S k)))) with (S (n - S k) * (choose n (S k) * (S k * fact k * fact (n - S k)))) by ring.
      rewrite H1, H2. rewrite <- Nat.mul_add_distr_r. f_equal. lia.
Qed.

Lemma comb_choose n k : k <= n -> comb n k = choose n k.
Proof.
  intros H. unfold comb. rewrite <- (choose_fact n k H). apply Nat.div_mul.
  apply Nat.neq_mul_0. split; apply fact_neq_0.
Qed.

Lemma filter_map_len {A B} (p : B -> bool) (f : A -> B) l : length (filter p (map f l)) = length (filter (fun a => p (f a)) l).
Proof. induction l as [|a l IH]; simpl; auto. destruct (p (f a)); simpl; auto. Qed.
Lemma filter_ext_len {A} (p q : A -> bool) l : (forall a, p a = q a) -> length (filter p l) = length (filter q l).
Proof. intros H. induction l as [|a l IH]; simpl; auto. rewrite H. destruct (q a); simpl; auto. Qed.
Lemma filter_none {A} (p : A -> bool) l : (forall a, In a l -> p a = false) -> filter p l = [].
Proof. induction l as [|a l IH]; intros H; simpl; auto. rewrite H by (left; auto). apply IH. intros; apply H; right; auto. Qed.

Lemma choose_count n : forall k, choose n k = length (filter (fun s => Nat.eqb (list_sum s) k) (states n 2)).
Proof.
  induction n as [|n IH]; intros k.
  - destruct k; reflexivity.
  - change (states (S n) 2) with (map (cons 0) (states n 2) ++ map (cons 1) (states n 2) ++ []).
    rewrite app_nil_r, filter_app, app_length, !filter_map_len.
    destruct k as [|k]; cbn [choose].
    + rewrite (filter_none (fun a => Nat.eqb (list_sum (1 :: a)) 0)) by reflexivity. cbn [length].
      specialize (IH 0). change (fun a => Nat.eqb (list_sum (0 :: a)) 0) with (fun a => Nat.eqb (list_sum a) 0). rewrite <- IH. destruct n; simpl; lia.
    + rewrite (filter_ext_len (fun a => Nat.eqb (list_sum (0 :: a)) (S k)) (fun s => Nat.eqb (list_sum s) (S k))) by reflexivity.
      rewrite (filter_ext_len (fun a => Nat.eqb (list_sum (1 :: a)) (S k)) (fun s => Nat.eqb (list_sum s) k)) by reflexivity.
      rewrite <- !IH. lia.
Qed.

Theorem comb_counts n k : k <= n -> comb n k = length (filter (fun s => Nat.eqb (list_sum s) k) (states n 2)).
Proof. intros H. rewrite comb_choose by auto. apply choose_count. Qed.

Lemma fold_left_mul l : forall a, fold_left Nat.mul l a = a * fold_right Nat.mul 1 l.
Proof. induction l as [|v l IH]; intros a; simpl; [lia|]. rewrite IH. lia. Qed.
Theorem prod_spec l : prod l = fold_right Nat.mul 1 l.
Proof. unfold prod. rewrite fold_left_mul. lia. Qed.

Theorem prod_states l : (* number of cells of an array of shape l *)
  prod l = length (fold_right (fun n acc => flat_map (fun i => map (cons i) acc) (seq 0 n)) [[]] l).
Proof.
  rewrite prod_spec. induction l as [|n l IH]; simpl; auto. rewrite IH.
  set (L := fold_right _ _ l). clear. assert (H : forall k m, length (flat_map (fun i => map (cons i) L) (seq k m)) = m * length L).
  { intros k m. revert k. induction m as [|m IH]; intros k; simpl; auto. rewrite app_length, map_length, IH. auto. }
  rewrite H. reflexivity.
Qed.
