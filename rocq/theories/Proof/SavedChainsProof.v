From Coq Require Import String Reals List Arith Lra Lia Permutation.
From Verif.Model Require Import Experiment SavedChains.
From Verif.Proof Require Import ExperimentProof.
Import ListNotations.
Local Open Scope R_scope.

Lemma multiples k : (0 < k)%nat -> forall L, filter (fun s => Nat.eqb (s mod k) 0) (seq 1 L) = map (fun j => (S j * k)%nat) (seq 0 (L / k)).
Proof.
  intros Hk. induction L as [| L IH]; [rewrite Nat.div_0_l by lia; reflexivity |].
  rewrite seq_S, filter_app, IH. cbn [filter].
  replace (1 + L)%nat with (S L) by lia.
  pose proof (Nat.div_mod (S L) k ltac:(lia)) as D1. pose proof (Nat.mod_upper_bound (S L) k ltac:(lia)) as B1.
  pose proof (Nat.div_mod L k ltac:(lia)) as D2. pose proof (Nat.mod_upper_bound L k ltac:(lia)) as B2.
  revert D1 B1 D2 B2. generalize (S L / k)%nat (S L mod k)%nat (L / k)%nat (L mod k)%nat. intros q r q' r' D1 B1 D2 B2.
  destruct (Nat.eqb_spec r 0) as [-> | N].
  - assert (q = S q') by nia. subst q. rewrite seq_S, map_app. cbn [map]. f_equal. f_equal. simpl. nia.
  - assert (q = q') by nia. subst q. rewrite app_nil_r. reflexivity.
Qed.

Lemma saved_steps_eq L k r : 0 <= r <= 1 -> (0 < k)%nat -> saved_steps L k r = map (fun j => (S j * k)%nat) (seq 0 (L / k)).
Proof. intros Hr Hk. unfold saved_steps. rewrite steps_all by auto. apply multiples, Hk. Qed.

Theorem saved_spec {X} (x0 : X) top perm B L k r trace : Permutation perm (seq 0 B) -> (num_saved_samples top <= B)%nat -> 0 <= r <= 1 -> (0 < k)%nat ->
  exists sel, length sel = num_saved_samples top /\ NoDup sel /\ (forall i, In i sel -> (i < B)%nat) /\
  forall ss ge, saved_samples x0 top perm B L k r ss ge trace =
    Some (if (ss || ge)%bool then map (fun j => map (fun i => nth i (trace (S j * k)%nat) x0) sel) (seq 0 (L / k)) else []).
Proof.
  intros HP HB Hr Hk. exists (firstn (num_saved_samples top) perm).
  assert (HL : length perm = B) by (rewrite (Permutation_length HP); apply seq_length).
  assert (HN : NoDup perm) by (eapply Permutation_NoDup; [apply Permutation_sym, HP | apply seq_NoDup]).
  split; [rewrite firstn_length; lia | split; [| split]].
  - rewrite <- (firstn_skipn (num_saved_samples top) perm) in HN. revert HN. generalize (firstn (num_saved_samples top) perm), (skipn (num_saved_samples top) perm).
    clear. intros l1 l2. induction l1 as [| a l1 IH]; [constructor |]. cbn [app]. intros H. inversion H; subst. constructor; [| auto].
    intros Hi. apply H2. apply in_or_app. left; exact Hi.
  - intros i Hi. assert (Hp : In i perm).
    { rewrite <- (firstn_skipn (num_saved_samples top) perm). apply in_or_app. left; exact Hi. }
    apply (Permutation_in _ HP) in Hp. apply in_seq in Hp. lia.
  - intros ss ge. unfold saved_samples, select_chains. destruct (Nat.leb_spec (num_saved_samples top) B); [| lia].
    destruct (ss || ge)%bool; [| reflexivity]. f_equal. rewrite saved_steps_eq by assumption. rewrite map_map. reflexivity.
Qed.
