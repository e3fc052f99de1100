(** Sequential sampling without replacement: ordered k-subsets and their probabilities. *)
From Coq Require Import Reals List Lra Lia Arith Permutation.
From Verif.Base Require Import RSum Cube Dist XFloat MH.
From Verif.Model Require Import MathUtil.
From Verif.Proof Require Import MathUtilProof.
Import ListNotations.
Local Open Scope R_scope.

(** Ordered k-subsets of [avail]. *)
Fixpoint kperms (k : nat) (avail : list nat) : list (list nat) :=
  match k with
  | O => [[]]
  | S k' => flat_map (fun i => map (cons i) (kperms k' (remove_nat i avail))) avail
  end.

Lemma remove_nat_perm i l : In i l -> Permutation l (i :: remove_nat i l).
Proof.
  induction l as [|j l IH]; simpl; [tauto|]. intros H. destruct (Nat.eqb_spec i j) as [->|Hne]; auto.
  destruct H as [H|H]; [congruence|]. rewrite (IH H) at 1. constructor.
Qed.

Lemma NoDup_remove_nat i l : NoDup l -> NoDup (remove_nat i l).
Proof.
  induction 1 as [|j l Hj Hl IH]; simpl; [constructor|]. destruct (Nat.eqb i j); auto.
  constructor; auto. intros Hin. apply Hj. clear -Hin. induction l as [|b l IH]; simpl in *; auto.
  destruct (Nat.eqb i b); auto. destruct Hin; auto.
Qed.

Lemma in_remove_nat i j l : NoDup l -> (In j (remove_nat i l) <-> In j l /\ j <> i).
Proof.
  induction 1 as [|a l Ha Hl IH]; simpl; [tauto|].
  destruct (Nat.eqb_spec i a) as [->|Hne].
  - split; [|intros [[H|H] H']; [congruence|auto]]. intros H; split; auto. congruence.
  - simpl. rewrite IH. split; [intros [H|[H1 H2]]; subst; auto|intros [[H|H] H']; auto].
Qed.

Lemma length_remove_nat i l : In i l -> length (remove_nat i l) = (length l - 1)%nat.
Proof.
  intros H. pose proof (Permutation_length (remove_nat_perm i l H)) as HL. simpl in HL. lia.
Qed.

Lemma in_kperms k : forall avail p, NoDup avail ->
  (In p (kperms k avail) <-> length p = k /\ NoDup p /\ incl p avail).
Proof.
  induction k as [|k IH]; intros avail p Hnd; simpl.
  - split.
    + intros [<-|[]]. repeat split; [constructor|intros a []].
    + intros (H & _). destruct p; [auto|discriminate].
  - rewrite in_flat_map. split.
    + intros (i & Hi & Hp). apply in_map_iff in Hp. destruct Hp as (p' & <- & Hp').
      apply IH in Hp'; [|apply NoDup_remove_nat; auto]. destruct Hp' as (H1 & H2 & H3).
      simpl. split; [lia|]. split.
      * constructor; auto. intros Hin. apply H3 in Hin. apply in_remove_nat in Hin; auto. tauto.
      * intros a [<-|Ha]; auto. apply H3 in Ha. apply in_remove_nat in Ha; tauto.
    + intros (H1 & H2 & H3). destruct p as [|i p']; [discriminate|].
      inversion H2; subst. exists i. split; [apply H3; left; auto|].
      apply in_map. apply IH; [apply NoDup_remove_nat; auto|]. simpl in H1. split; [lia|]. split; auto.
      intros a Ha. apply in_remove_nat; auto. split; [apply H3; right; auto|]. congruence.
Qed.

Lemma NoDup_kperms k : forall avail, NoDup avail -> NoDup (kperms k avail).
Proof.
  induction k as [|k IH]; intros avail Hnd; simpl; [repeat constructor; auto|].
  apply NoDup_flat_map; auto.
  - intros i Hi. apply NoDup_map_inj; [intros a b _ _ H; inversion H; auto|]. apply IH, NoDup_remove_nat; auto.
  - intros a b x Ha Hb Hx1 Hx2. apply in_map_iff in Hx1, Hx2.
    destruct Hx1 as (p1 & <- & _), Hx2 as (p2 & H & _). inversion H; auto.
Qed.

(** Probability of drawing exactly the ordered sequence [path], one after the other, from [avail]
    with weights [w] (specification; each factor is weight over the weight still available). *)
Fixpoint path_prob (w : nat -> R) (avail path : list nat) : R :=
  match path with
  | [] => 1
  | i :: path' => w i / rsum avail w * path_prob w (remove_nat i avail) path'
  end.

Lemma E_norepl w k : forall avail f,
  E (norepl_law w k avail) f = rsum (kperms k avail) (fun p => path_prob w avail p * f p).
Proof.
  induction k as [|k IH]; intros avail f.
  - cbn [norepl_law kperms rsum path_prob]. rewrite E_ret. lra.
  - cbn [norepl_law kperms]. rewrite E_bind, E_weighted, rsum_flat_map. apply rsum_ext. intros i _.
    rewrite E_dmap, IH, rsum_map, <- rsum_scal. apply rsum_ext. intros p _. cbn [path_prob]. ring.
Qed.

Lemma is_prob_norepl w k : forall avail, (forall i, In i avail -> 0 < w i) -> NoDup avail -> (k <= length avail)%nat ->
  is_prob (norepl_law w k avail).
Proof.
  induction k as [|k IH]; intros avail Hw Hnd Hk; simpl; [apply is_prob_ret|].
  assert (Hs : 0 < rsum avail w).
  { apply rsum_pos; [destruct avail; simpl in Hk; [lia|discriminate]|auto]. }
  apply is_prob_bind.
  - apply is_prob_weighted.
    + intros i Hi. apply Rmult_le_pos; [left; auto|]. left; apply Rinv_0_lt_compat; auto.
    + unfold Rdiv. rewrite rsum_scal_r. apply Rinv_r. lra.
  - intros i q Hin. apply in_map_iff in Hin. destruct Hin as (i' & H & Hin). inversion H; subst.
    apply is_prob_dmap, IH.
    + intros j Hj. apply in_remove_nat in Hj; auto. apply Hw; tauto.
    + apply NoDup_remove_nat; auto.
    + rewrite length_remove_nat by auto. lia.
Qed.

Lemma path_prob_pos w : forall path avail,
  (forall i, In i avail -> 0 < w i) -> NoDup avail -> NoDup path -> incl path avail ->
  0 < path_prob w avail path.
Proof.
  induction path as [|i p IH]; intros avail Hw Hnd Hp Hincl; simpl; [lra|].
  inversion Hp; subst.
  apply Rmult_lt_0_compat.
  - apply Rdiv_lt_0_compat; [apply Hw, Hincl; left; auto|].
    apply rsum_pos; [|auto]. intros ->. destruct (Hincl i); left; auto.
  - apply IH; auto.
    + intros j Hj. apply in_remove_nat in Hj; auto. apply Hw; tauto.
    + apply NoDup_remove_nat; auto.
    + intros j Hj. apply in_remove_nat; auto. split; [apply Hincl; right; auto|congruence].
Qed.

Lemma kperms_sum1 w k avail :
  (forall i, In i avail -> 0 < w i) -> NoDup avail -> (k <= length avail)%nat ->
  rsum (kperms k avail) (path_prob w avail) = 1.
Proof.
  intros Hw Hnd Hk. destruct (is_prob_norepl w k avail Hw Hnd Hk) as [_ H].
  unfold mass in H. rewrite E_norepl in H. rewrite <- H. apply rsum_ext. intros; ring.
Qed.

Lemma rsum_remove_nat (w : nat -> R) i l : In i l -> rsum (remove_nat i l) w = rsum l w - w i.
Proof. intros H. rewrite (rsum_perm _ _ w (remove_nat_perm i l H)). simpl. lra. Qed.

(** The renormalised log-probabilities sum to the log path probability. *)
Lemma seq_cond_path (l : nat -> R) : forall path avail acc,
  NoDup avail -> NoDup path -> incl path avail ->
  rsum avail (fun i => exp (l i)) = 1 - acc ->
  exp (rsum (seq_cond acc (map l path)) (fun v => v)) = path_prob (fun i => exp (l i)) avail path.
Proof.
  induction path as [|i p IH]; intros avail acc Hnd Hp Hincl Hacc.
  - simpl. apply exp_0.
  - cbn [map seq_cond rsum path_prob]. inversion Hp; subst.
    assert (Hi : In i avail) by (apply Hincl; left; auto).
    assert (Hpos : 0 < 1 - acc).
    { rewrite <- Hacc. apply rsum_pos; [intros ->; destruct Hi|intros; apply exp_pos]. }
    rewrite exp_plus, exp_ln by (apply Rdiv_lt_0_compat; [apply exp_pos|auto]).
    rewrite Hacc. f_equal. apply IH; auto.
    + apply NoDup_remove_nat; auto.
    + intros j Hj. apply in_remove_nat; auto. split; [apply Hincl; right; auto|congruence].
    + rewrite rsum_remove_nat by auto. rewrite Hacc. lra.
Qed.

(** Values returned for a path, as reals. *)
Definition fin_val (x : xf) : R := match x with Fin r => r | _ => 0 end.

Lemma renormalize_path (l : nat -> R) avail path :
  NoDup avail -> NoDup path -> incl path avail -> path <> [] ->
  rsum avail (fun i => exp (l i)) = 1 ->
  exists vs, renormalize (map l path) = Some (map Fin vs) /\ length vs = length path /\
    exp (rsum vs (fun v => v)) = path_prob (fun i => exp (l i)) avail path.
Proof.
  intros Hnd Hp Hincl Hne H1.
  assert (Hle : rsum (map l path) exp <= 1).
  { rewrite rsum_map, <- H1.
    assert (Hsub : forall path avail, NoDup avail -> NoDup path -> incl path avail ->
      rsum path (fun i => exp (l i)) <= rsum avail (fun i => exp (l i))).
    { clear. induction path as [|i p IH]; intros avail Hnd Hp Hincl.
      - simpl. apply rsum_nonneg. intros; left; apply exp_pos.
      - inversion Hp; subst. cbn [rsum].
        assert (Hi : In i avail) by (apply Hincl; left; auto).
        pose proof (rsum_remove_nat (fun i => exp (l i)) i avail Hi) as Hr. cbn beta in Hr.
        specialize (IH (remove_nat i avail)).
        assert (rsum p (fun i => exp (l i)) <= rsum (remove_nat i avail) (fun i => exp (l i))).
        { apply IH; [apply NoDup_remove_nat; auto|auto|]. intros j Hj. apply in_remove_nat; auto.
          split; [apply Hincl; right; auto|congruence]. }
        lra. }
    apply Hsub; auto. }
  exists (seq_cond 0 (map l path)). split; [apply renormalize_correct; [destruct path; [congruence|discriminate]|auto]|].
  split.
  - assert (Hlen : forall ls acc, length (seq_cond acc ls) = length ls).
    { induction ls; intros; simpl; auto. }
    rewrite Hlen, map_length; auto.
  - apply seq_cond_path; auto. lra.
Qed.

From Verif.Spec Require Import Selection.

Lemma path_prob_seq_prob w : forall path avail, NoDup avail -> NoDup path -> incl path avail ->
  path_prob w avail path = seq_prob w (rsum avail w) path.
Proof.
  induction path as [|i p IH]; intros avail Hnd Hp Hincl; simpl; auto. inversion Hp; subst.
  rewrite IH; auto.
  - rewrite rsum_remove_nat; auto. apply Hincl; left; auto.
  - apply NoDup_remove_nat; auto.
  - intros j Hj. apply in_remove_nat; auto. split; [apply Hincl; right; auto|congruence].
Qed.

Lemma kperms_enumerates k avail : NoDup avail -> enumerates_selections (kperms k avail) k avail.
Proof. intros H. split; [apply NoDup_kperms; auto|]. intros p. apply in_kperms; auto. Qed.

Lemma selections_sum1 w k avail L :
  (forall i, In i avail -> 0 < w i) -> NoDup avail -> (k <= length avail)%nat ->
  enumerates_selections L k avail -> rsum L (seq_prob w (rsum avail w)) = 1.
Proof.
  intros Hw Hnd Hk [HL1 HL2]. rewrite <- (kperms_sum1 w k avail Hw Hnd Hk).
  rewrite (rsum_perm L (kperms k avail)).
  - apply rsum_ext. intros p Hp. apply in_kperms in Hp; auto. symmetry. apply path_prob_seq_prob; tauto.
  - apply NoDup_Permutation; auto; [apply NoDup_kperms; auto|]. intros p. rewrite HL2, in_kperms; tauto.
Qed.

Lemma norepl_law_spec w k avail L f :
  NoDup avail -> enumerates_selections L k avail ->
  E (norepl_law w k avail) f = rsum L (fun p => seq_prob w (rsum avail w) p * f p).
Proof.
  intros Hnd [HL1 HL2]. rewrite E_norepl.
  rewrite (rsum_perm L (kperms k avail)).
  - apply rsum_ext. intros p Hp. apply in_kperms in Hp; auto. rewrite path_prob_seq_prob; tauto.
  - apply NoDup_Permutation; auto; [apply NoDup_kperms; auto|]. intros p. rewrite HL2, in_kperms; tauto.
Qed.

Lemma renormalize_seq_prob (l : nat -> R) avail path :
  NoDup avail -> NoDup path -> incl path avail -> path <> [] ->
  rsum avail (fun i => exp (l i)) = 1 ->
  exists vs, renormalize (map l path) = Some (map Fin vs) /\ length vs = length path /\
    exp (rsum vs (fun v => v)) = seq_prob (fun i => exp (l i)) 1 path.
Proof.
  intros H1 H2 H3 H4 H5. destruct (renormalize_path l avail path H1 H2 H3 H4 H5) as (vs & A & B & D).
  exists vs. split; auto. split; auto. rewrite D, path_prob_seq_prob, H5; auto.
Qed.
