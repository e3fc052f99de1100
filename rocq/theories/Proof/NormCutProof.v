(** Normalised cut: cut sizes, volumes and move scores. *)
From Coq Require Import Reals List Lra Lia Arith Permutation.
From Verif.Base Require Import RSum.
From Verif.Spec Require Import GraphSpec.
From Verif.Model Require Import CombOpt.
From Verif.Proof Require Import GraphProof.
Import ListNotations.
Local Open Scope R_scope.

Definition boundary (x : nat -> nat) (c : nat) (e : nat * nat) : bool := xorb (Nat.eqb (x (fst e)) c) (Nat.eqb (x (snd e)) c).

Lemma edges_sum M pw g (F : nat * nat -> R) : F (0, 0)%nat = 0 -> rsum (ep_edges (graph2edges M pw g)) F = rsum (map ends (g_edges g)) F.
Proof. intros H. unfold graph2edges. cbn [ep_edges]. rewrite rsum_app, rsum_repeat, H. ring. Qed.

Lemma rsum_count {A} (p : A -> bool) l : rsum l (fun i => if p i then 1 else 0) = INR (length (filter p l)).
Proof. induction l as [|a l IH]; [reflexivity|]. cbn [rsum filter]. rewrite IH. destruct (p a); cbn [length]; rewrite ?S_INR; ring. Qed.

Lemma cut_sizes_sum M pw g x c : cut_sizes (graph2edges M pw g) (onehot x) c = rsum (map ends (g_edges g)) (fun e => if boundary x c e then 1 else 0).
Proof.
  unfold cut_sizes. rewrite edges_sum.
  - apply rsum_ext. intros [u v] _. unfold onehot, boundary. cbn [fst snd]. destruct (Nat.eqb (x u) c), (Nat.eqb (x v) c); cbn [xorb]; ring.
  - unfold onehot. cbn [fst snd]. destruct (Nat.eqb (x 0%nat) c); ring.
Qed.

Theorem cut_sizes_count M pw g x c : cut_sizes (graph2edges M pw g) (onehot x) c = INR (length (filter (boundary x c) (map ends (g_edges g)))).
Proof. rewrite cut_sizes_sum. apply rsum_count. Qed.

Lemma boundary_total C x e : (x (fst e) < C)%nat -> (x (snd e) < C)%nat ->
  rsum (seq 0 C) (fun c => if boundary x c e then 1 else 0) = if Nat.eqb (x (fst e)) (x (snd e)) then 0 else 2.
Proof.
  intros Hu Hv. unfold boundary. set (u := x (fst e)) in *. set (v := x (snd e)) in *.
  assert (Hs : forall k, (k < C)%nat -> rsum (seq 0 C) (fun c => if Nat.eqb k c then 1 else 0) = 1).
  { intros k Hk. rewrite (rsum_single (seq 0 C) _ k); [rewrite Nat.eqb_refl; auto|apply seq_NoDup|apply in_seq; lia|].
    intros b _ Hb. destruct (Nat.eqb_spec k b); congruence. }
  destruct (Nat.eqb_spec u v) as [->|Hne].
  - rewrite (rsum_ext _ _ (fun _ => 0)); [apply rsum_const0; auto|]. intros c _. destruct (Nat.eqb v c); reflexivity.
  - rewrite (rsum_ext _ _ (fun c => (if Nat.eqb u c then 1 else 0) + (if Nat.eqb v c then 1 else 0))).
    + rewrite rsum_plus, !Hs by auto. ring.
    + intros c _. destruct (Nat.eqb_spec u c); destruct (Nat.eqb_spec v c); subst; try congruence; cbn [xorb]; ring.
Qed.

Theorem cut_sizes_total M pw g x C : (forall e, In e (map ends (g_edges g)) -> (x (fst e) < C)%nat /\ (x (snd e) < C)%nat) ->
  rsum (seq 0 C) (cut_sizes (graph2edges M pw g) (onehot x))
  = 2 * INR (length (filter (fun e => negb (Nat.eqb (x (fst e)) (x (snd e)))) (map ends (g_edges g)))).
Proof.
  intros Hx. rewrite (rsum_ext _ _ (fun c => rsum (map ends (g_edges g)) (fun e => if boundary x c e then 1 else 0))) by (intros; apply cut_sizes_sum).
  rewrite rsum_swap, <- rsum_count, <- rsum_scal. apply rsum_ext. intros e He. destruct (Hx e He).
  rewrite boundary_total by auto. destruct (Nat.eqb _ _); cbn [negb]; ring.
Qed.

(** Volumes. *)
Theorem volume_spec M pw g x c n : g_nodes g = seq 0 n ->
  volume n (graph2edges M pw g) (onehot x) c = rsum (seq 0 n) (fun v => if Nat.eqb (x v) c then INR (degree g v) else 0).
Proof.
  intros Hn. unfold volume, graph2edges. cbn [ep_degrees]. rewrite Hn. apply rsum_ext. intros v Hv. apply in_seq in Hv.
  rewrite (nth_indep _ 0 ((fun w => INR (degree g w)) 0%nat)) by (rewrite map_length, seq_length; lia).
  rewrite (map_nth (fun w => INR (degree g w))), seq_nth by lia. unfold onehot. rewrite Nat.add_0_l. destruct (Nat.eqb (x v) c); ring.
Qed.

Lemma degree_sum g n : loopless n (map ends (g_edges g)) -> rsum (seq 0 n) (fun v => INR (degree g v)) = 2 * INR (length (g_edges g)).
Proof.
  intros Hl. unfold degree.
  rewrite (rsum_ext _ _ (fun v => rsum (g_edges g) (fun e => (if Nat.eqb (fst (ends e)) v then 1 else 0) + (if Nat.eqb (snd (ends e)) v then 1 else 0)))).
  - rewrite rsum_swap. rewrite (rsum_ext _ _ (fun _ => 2)); [rewrite rsum_const; ring|].
    intros e He. assert (Hin : In (ends e) (map ends (g_edges g))) by (apply in_map; auto).
    destruct (ends e) as [u v] eqn:E. destruct (Hl u v Hin) as (Hu & Hv & _). cbn [fst snd].
    assert (Hs : forall k, (k < n)%nat -> rsum (seq 0 n) (fun c => if Nat.eqb k c then 1 else 0) = 1).
    { intros k Hk. rewrite (rsum_single (seq 0 n) _ k); [rewrite Nat.eqb_refl; auto|apply seq_NoDup|apply in_seq; lia|].
      intros b _ Hb. destruct (Nat.eqb_spec k b); congruence. }
    rewrite rsum_plus, !Hs by auto. ring.
  - intros v _. generalize (g_edges g) as l. induction l as [|e l IH]; [reflexivity|]. cbn [map list_sum fold_right rsum].
    change (fold_right Nat.add 0%nat) with list_sum. rewrite plus_INR, IH. f_equal.
    destruct (Nat.eqb (fst (ends e)) v), (Nat.eqb (snd (ends e)) v); simpl; ring.
Qed.

(** Move scores on unpadded graphs. *)
Lemma parity_xor a b : parity (if a : bool then 1 else 0) (if b : bool then 1 else 0) = if xorb a b then 1 else 0.
Proof. unfold parity. destruct a, b; reflexivity. Qed.

Section Moves.
Variables (g : graph) (M : nat) (pw : R).
Let p := graph2edges M pw g.
Let n := length (g_nodes g).
Let es := map ends (g_edges g).
Hypothesis Hl : loopless n es.
Hypothesis HM : (M <= length (g_edges g))%nat.

Lemma cur_cut_eq x c : lr_cur_cut p x c = cut_sizes p (onehot x) c.
Proof.
  unfold lr_cur_cut, p. rewrite bidir_sum_unweighted, cut_sizes_sum. replace (M - length (g_edges g))%nat with 0%nat by lia.
  cbn [INR]. rewrite Rmult_0_r, Rmult_0_l, Rplus_0_r, rsum_map.
  rewrite (rsum_ext (g_edges g) _ (fun e => if boundary x c (ends e) then 1 else 0)) by (intros; unfold bit; rewrite parity_xor; reflexivity).
  rewrite (rsum_ext (g_edges g) (fun e => parity _ _) (fun e => if boundary x c (ends e) then 1 else 0)).
  - field.
  - intros e _. unfold bit, swap. cbn [fst snd]. rewrite parity_xor. unfold boundary. rewrite Bool.xorb_comm. reflexivity.
Qed.

Lemma new_cut_eq x i c' c : lr_new_cut p x i c' c = cut_sizes p (onehot (put1 x i c')) c.
Proof.
  unfold lr_new_cut. rewrite cur_cut_eq. unfold p. rewrite !cut_sizes_sum, rsum_filter_if.
  rewrite (bidir_sum_unweighted M pw g (fun e => if Nat.eqb (fst e) i then parity (if Nat.eqb c' c then 1 else 0) (bit x (snd e) c) - parity (bit x (fst e) c) (bit x (snd e) c) else 0)).
  replace (M - length (g_edges g))%nat with 0%nat by lia. cbn [INR]. rewrite Rmult_0_r, Rmult_0_l, Rplus_0_r, !rsum_map.
  rewrite <- !rsum_plus. apply rsum_ext. intros e He.
  assert (Hin : In (ends e) es) by (apply in_map; auto). destruct (ends e) as [u v]. destruct (Hl u v Hin) as (_ & _ & Hne).
  unfold swap, bit, boundary, put1. cbn [fst snd]. rewrite !parity_xor.
  destruct (Nat.eqb_spec u i) as [->|Hu]; destruct (Nat.eqb_spec v i) as [->|Hv]; try congruence.
  - ring.
  - rewrite (Bool.xorb_comm (Nat.eqb (x i) c) (Nat.eqb (x u) c)), (Bool.xorb_comm (Nat.eqb c' c)). ring.
  - ring.
Qed.

Lemma new_vol_eq x i c' c : (i < n)%nat -> lr_new_vol n p x i c' c = volume n p (onehot (put1 x i c')) c.
Proof.
  intros Hi. unfold lr_new_vol, volume.
  replace (((if Nat.eqb c' c then 1 else 0) - onehot x i c) * nth i (ep_degrees p) 0)
    with (rsum (seq 0 n) (fun j => (onehot (put1 x i c') j c - onehot x j c) * nth j (ep_degrees p) 0)).
  - rewrite <- rsum_plus. apply rsum_ext. intros; ring.
  - rewrite (rsum_single (seq 0 n) _ i); [|apply seq_NoDup|apply in_seq; lia|].
    + unfold onehot at 1, put1. rewrite Nat.eqb_refl. reflexivity.
    + intros j _ Hj. unfold onehot, put1. destruct (Nat.eqb_spec j i); [congruence|]. ring.
Qed.

Theorem normcut_logratio_exact C T x i c' : (i < n)%nat ->
  normcut_logratio n C p T x i c'
  = normcut_forward (normcut_objective n C p (onehot (put1 x i c'))) T - normcut_forward (normcut_objective n C p (onehot x)) T.
Proof.
  intros Hi. unfold normcut_logratio, normcut_forward, normcut_objective.
  rewrite (rsum_ext (seq 0 C) (fun c => (lr_new_cut p x i c' c + nc_eps) / _)
    (fun c => (cut_sizes p (onehot (put1 x i c')) c + nc_eps) / (volume n p (onehot (put1 x i c')) c + nc_eps ^ 2)))
    by (intros c _; rewrite new_cut_eq, new_vol_eq by auto; reflexivity).
  rewrite (rsum_ext (seq 0 C) (fun c => (lr_cur_cut p x c + nc_eps) / _)
    (fun c => (cut_sizes p (onehot x) c + nc_eps) / (volume n p (onehot x) c + nc_eps ^ 2)))
    by (intros c _; rewrite cur_cut_eq; reflexivity).
  reflexivity.
Qed.
End Moves.

(** With a padding edge (0, 0) the scores of node 0 are wrong. *)
Definition nc_pad : graph := {| g_nodes := [0; 1]%nat; g_edges := [((0, 1)%nat, 1)] |}.
Lemma normcut_logratio_padded :
  normcut_logratio 2 2 (graph2edges 2 0 nc_pad) 1 (fun i => i) 0 1
  <> normcut_forward (normcut_objective 2 2 (graph2edges 2 0 nc_pad) (onehot (put1 (fun i => i) 0%nat 1%nat))) 1
     - normcut_forward (normcut_objective 2 2 (graph2edges 2 0 nc_pad) (onehot (fun i => i))) 1.
Proof.
  unfold normcut_logratio, normcut_forward, normcut_objective, lr_new_cut, lr_cur_cut, lr_new_vol, volume, cut_sizes, parity, bit, onehot, put1.
  cbn. unfold nc_eps. intros H. field_simplify in H. lra.
Qed.

(** Degrees listed in node iteration order. *)
Definition nc_ord : graph := {| g_nodes := [1; 0; 2]%nat; g_edges := [((1, 0)%nat, 1); ((1, 2)%nat, 1)] |}.
Lemma volume_order : volume 3 (graph2edges 2 0 nc_ord) (onehot (fun i => i)) 0
  <> rsum (seq 0 3) (fun v => if Nat.eqb v 0 then INR (degree nc_ord v) else 0).
Proof. unfold volume, onehot. cbn. lra. Qed.

Lemma volume_order_wrong : exists M pw g x c, Permutation (g_nodes g) (seq 0 (length (g_nodes g))) /\ simple (length (g_nodes g)) (map ends (g_edges g)) /\
  volume (length (g_nodes g)) (graph2edges M pw g) (onehot x) c <> rsum (seq 0 (length (g_nodes g))) (fun v => if Nat.eqb (x v) c then INR (degree g v) else 0).
Proof.
  exists 2%nat, 0, nc_ord, (fun i => i), 0%nat. split; [cbn; apply perm_swap|]. split; [|exact volume_order].
  split; [intros u v [H|[H|[]]]; injection H as <- <-; cbn; repeat split; lia|]. cbn. repeat constructor; cbn; intuition congruence.
Qed.

Lemma volume_total M pw g x C n : g_nodes g = seq 0 n -> loopless n (map ends (g_edges g)) -> (forall v, (v < n)%nat -> (x v < C)%nat) ->
  rsum (seq 0 C) (volume n (graph2edges M pw g) (onehot x)) = 2 * INR (length (g_edges g)).
Proof.
  intros Hn Hl Hx. rewrite (rsum_ext _ _ (fun c => rsum (seq 0 n) (fun v => if Nat.eqb (x v) c then INR (degree g v) else 0))) by (intros; apply volume_spec; auto).
  rewrite rsum_swap, <- (degree_sum g n Hl). apply rsum_ext. intros v Hv. apply in_seq in Hv.
  rewrite (rsum_single (seq 0 C) _ (x v)); [rewrite Nat.eqb_refl; auto|apply seq_NoDup|apply in_seq; specialize (Hx v); lia|].
  intros b _ Hb. destruct (Nat.eqb_spec (x v) b); congruence.
Qed.

Lemma nc_pad_simple : simple 2 (map ends (g_edges nc_pad)).
Proof. split; [intros u v [H|[]]; injection H as <- <-; repeat split; lia|]. cbn. repeat constructor; cbn; tauto. Qed.

Lemma normcut_padded_wrong : exists g M pw C T x i c', simple (length (g_nodes g)) (map ends (g_edges g)) /\ (i < length (g_nodes g))%nat /\ (c' < C)%nat /\ 0 < T /\
  normcut_logratio (length (g_nodes g)) C (graph2edges M pw g) T x i c'
  <> normcut_forward (normcut_objective (length (g_nodes g)) C (graph2edges M pw g) (onehot (put1 x i c'))) T
     - normcut_forward (normcut_objective (length (g_nodes g)) C (graph2edges M pw g) (onehot x)) T.
Proof.
  exists nc_pad, 2%nat, 0, 2%nat, 1, (fun i => i), 0%nat, 1%nat. split; [exact nc_pad_simple|]. split; [cbn; lia|]. split; [lia|]. split; [lra|].
  exact normcut_logratio_padded.
Qed.

Lemma normcut_padded_nodes : exists g N M pw C T, simple (length (g_nodes g)) (map ends (g_edges g)) /\ (length (g_nodes g) <= N)%nat /\
  forall x, normcut_forward_checked N C (graph2edges M pw g) T x = None.
Proof. exists nc_pad, 3%nat, 0%nat, 0, 2%nat, 1. split; [exact nc_pad_simple|]. split; [cbn; lia|]. intros x. reflexivity. Qed.
