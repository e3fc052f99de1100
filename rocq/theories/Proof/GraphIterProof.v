(** Proofs about the graph iterator. *)
From Coq Require Import List Arith Lia.
From Verif.Model Require Import GraphIter.
Import ListNotations.

Section Iter.
Variable A : Type.

(** The items of process r, in order. *)
Fixpoint mine (P r idx : nat) (gs : list A) : list (entry A) :=
  match gs with
  | [] => []
  | g :: gs' => if Nat.eqb (idx mod P) r then Real idx g :: mine P r (S idx) gs' else mine P r (S idx) gs'
  end.

Lemma fill_spec local P r (Hl : 0 < local) gs : forall idx buffer out b, length buffer < local ->
  fill local P r idx buffer gs = (out, b) ->
  concat out ++ b = buffer ++ mine P r idx gs /\ (forall x, In x out -> length x = local) /\ length b < local.
Proof.
  induction gs as [|g gs IH]; intros idx buffer out b Hb H; cbn [fill mine] in *.
  - injection H as <- <-. rewrite app_nil_r. split; auto. split; auto. intros x [].
  - destruct (Nat.eqb (idx mod P) r).
    + destruct (Nat.eqb_spec (length (buffer ++ [Real idx g])) local) as [E|E].
      * destruct (fill local P r (S idx) [] gs) as [out' b'] eqn:F. injection H as <- <-.
        destruct (IH (S idx) [] _ _ Hl F) as (H1 & H2 & H3). split; [|split; auto].
        -- cbn [concat]. rewrite <- app_assoc, H1. rewrite <- !app_assoc. reflexivity.
        -- intros x [<-|Hx]; auto.
      * apply IH in H; [|rewrite app_length in *; cbn [length] in *; lia]. destruct H as (H1 & H2 & H3). split; auto.
        rewrite H1, <- app_assoc. reflexivity.
    + apply IH in H; auto.
Qed.

Lemma concat_length local (out : list (list (entry A))) : (forall x, In x out -> length x = local) -> length (concat out) = length out * local.
Proof.
  induction out as [|x out IH]; intros H; [reflexivity|]. cbn [concat length]. rewrite app_length, IH by (intros; apply H; right; auto).
  rewrite (H x) by (left; auto). lia.
Qed.

(** Position q of the items of process r. *)
Lemma mine_skip P r (HP : r < P) gs : forall idx k q, (idx + k) mod P = r -> (forall j, j < k -> (idx + j) mod P <> r) ->
  nth_error (mine P r idx gs) q = option_map (Real (idx + k + P * q)) (nth_error gs (k + P * q)).
Proof.
  induction gs as [|g gs IH]; intros idx k q Hk Hj; cbn [mine].
  - rewrite !(proj2 (nth_error_None _ _)) by (cbn; lia). reflexivity.
  - destruct (Nat.eqb_spec (idx mod P) r) as [E|E].
    + assert (k = 0) as ->. { destruct k; auto. exfalso. apply (Hj 0); [lia|]. rewrite Nat.add_0_r. auto. }
      destruct q as [|q]; cbn [nth_error].
      * rewrite Nat.mul_0_r, !Nat.add_0_r. reflexivity.
      * rewrite (IH (S idx) (P - 1) q).
        -- replace (0 + P * S q) with (S (P - 1 + P * q)) by nia. cbn [nth_error].
           replace (idx + 0 + P * S q) with (S idx + (P - 1) + P * q) by nia. reflexivity.
        -- replace (S idx + (P - 1)) with (idx + 1 * P) by lia. rewrite Nat.mod_add by lia. auto.
        -- intros j Hj' E'. 
           assert (Hr : (idx + S j) mod P = (r + S j) mod P) by (rewrite <- E, Nat.add_mod_idemp_l by lia; reflexivity).
           replace (S idx + j) with (idx + S j) in E' by lia. rewrite E' in Hr.
           destruct (Nat.lt_ge_cases (r + S j) P).
           ++ rewrite Nat.mod_small in Hr by lia. lia.
           ++ replace (r + S j) with (r + S j - P + 1 * P) in Hr by lia. rewrite Nat.mod_add, Nat.mod_small in Hr by lia. lia.
    + destruct k as [|k]; [rewrite Nat.add_0_r in Hk; congruence|].
      rewrite (IH (S idx) k q).
      * cbn [Nat.add nth_error]. replace (S (idx + k + P * q)) with (idx + S k + P * q) by lia. reflexivity.
      * rewrite <- Hk. f_equal. lia.
      * intros j Hlt. replace (S idx + j) with (idx + S j) by lia. apply Hj. lia.
Qed.

Lemma mine_nth P r gs q : r < P -> nth_error (mine P r 0 gs) q = option_map (Real (r + P * q)) (nth_error gs (r + P * q)).
Proof.
  intros HP. rewrite (mine_skip P r HP gs 0 r q).
  - reflexivity.
  - cbn. apply Nat.mod_small; auto.
  - intros j Hj. cbn. rewrite Nat.mod_small by lia. lia.
Qed.

Lemma mine_length_lt P r gs q : r < P -> (q < length (mine P r 0 gs) <-> r + P * q < length gs).
Proof.
  intros HP. pose proof (mine_nth P r gs q HP) as H. split; intros Hq.
  - destruct (nth_error gs (r + P * q)) eqn:E; [apply nth_error_Some; congruence|].
    cbn in H. apply nth_error_Some in Hq. congruence.
  - apply nth_error_Some in Hq. apply nth_error_Some. destruct (nth_error gs (r + P * q)); [|congruence]. rewrite H. discriminate.
Qed.

Lemma pad_batches_spec local count : forall buffer, length buffer <= local ->
  concat (pad_batches local count buffer) = match count with 0 => [] | S _ => buffer ++ repeat Dummy (count * local - length buffer) end
  /\ length (pad_batches local count buffer) = count /\ (forall x, In x (pad_batches local count buffer) -> @length (entry A) x = local).
Proof.
  induction count as [|c IH]; intros buffer Hb; cbn [pad_batches concat length].
  - split; [|split]; auto. intros x [].
  - destruct (IH [] ltac:(cbn; lia)) as (H1 & H2 & H3). split; [|split].
    + rewrite H1. rewrite <- app_assoc. f_equal. destruct c; cbn [length].
      * rewrite app_nil_r. f_equal. lia.
      * cbn [app]. rewrite <- repeat_app. f_equal. rewrite Nat.sub_0_r. nia.
    + rewrite H2. reflexivity.
    + intros x [<-|Hx]; auto. rewrite app_length, repeat_length. lia.
Qed.

Lemma total_batches_ceil N B : 0 < B -> (N <= total_batches N B * B) /\ (forall t, N <= t * B -> total_batches N B <= t).
Proof.
  intros HB. unfold total_batches. pose proof (Nat.div_mod N B ltac:(lia)) as HD. pose proof (Nat.mod_upper_bound N B ltac:(lia)) as HM.
  destruct (Nat.eqb_spec (N mod B) 0) as [E|E].
  - split; [nia|]. intros t Ht. rewrite Nat.add_0_r. apply Nat.div_le_upper_bound; lia.
  - split; [nia|]. intros t Ht. destruct (Nat.le_gt_cases (N / B + 1) t); auto. exfalso. assert (t <= N / B) by lia. nia.
Qed.

Theorem iterator_spec N B P r (gs : list A) : 0 < B -> r < P -> B mod P = 0 -> length gs <= N ->
  exists out, get_iterator N B P r gs = Some out /\ length out = total_batches N B
    /\ (forall x, In x out -> length x = B / P)
    /\ forall q, q < total_batches N B * (B / P) ->
         nth_error (concat out) q = Some (match nth_error gs (r + P * q) with Some g => Real (r + P * q) g | None => Dummy end).
Proof.
  intros HB HP HBP HN. unfold get_iterator. rewrite HBP. cbn [Nat.eqb].
  set (local := B / P). assert (HBl : B = P * local) by (unfold local; pose proof (Nat.div_mod B P ltac:(lia)); lia).
  assert (Hl : 0 < local) by nia.
  destruct (fill local P r 0 [] gs) as [out b] eqn:F. destruct (fill_spec local P r Hl gs 0 [] out b Hl F) as (H1 & H2 & H3). cbn [app] in H1.
  destruct (total_batches_ceil N B HB) as [T1 T2]. set (total := total_batches N B) in *.
  pose proof (concat_length local out H2) as HL.
  assert (Hlen : length (mine P r 0 gs) = length out * local + length b) by (rewrite <- H1, app_length, HL; reflexivity).
  (* all items fit *)
  assert (Hfit : forall q, q < length (mine P r 0 gs) -> q < total * local).
  { intros q Hq. apply mine_length_lt in Hq; auto. assert (P * q < P * (total * local)) by nia. nia. }
  assert (Hle : length out <= total).
  { destruct (Nat.le_gt_cases (length out) total); auto. exfalso.
    specialize (Hfit (length out * local - 1)). nia. }
  assert (Hb : length b = 0 \/ length out < total).
  { destruct (length b) eqn:Eb; auto. right. specialize (Hfit (length out * local) ltac:(lia)). nia. }
  destruct (pad_batches_spec local (total - length out) b ltac:(lia)) as (P1 & P2 & P3).
  exists (out ++ pad_batches local (total - length out) b). split; [reflexivity|]. split; [rewrite app_length, P2; lia|]. split.
  - intros x Hx. apply in_app_or in Hx. destruct Hx; auto.
  - intros q Hq. rewrite concat_app, P1.
    assert (Hall : concat out ++ match total - length out with 0 => [] | S _ => b ++ repeat Dummy ((total - length out) * local - length b) end
              = mine P r 0 gs ++ repeat Dummy (total * local - length (mine P r 0 gs))).
    { destruct (total - length out) eqn:Et.
      - assert (length b = 0) by lia. destruct b; [|cbn in *; lia]. rewrite app_nil_r in H1. rewrite <- H1 at 1.
        replace (total * local - length (mine P r 0 gs)) with 0 by (rewrite Hlen; cbn [length]; nia). cbn [repeat]. auto.
      - rewrite app_assoc, H1. f_equal. f_equal. nia. }
    rewrite Hall. destruct (Nat.lt_ge_cases q (length (mine P r 0 gs))) as [Hlt|Hge].
    + rewrite nth_error_app1 by auto. rewrite mine_nth by auto. apply mine_length_lt in Hlt; auto. apply nth_error_Some in Hlt.
      destruct (nth_error gs (r + P * q)); [reflexivity|congruence].
    + rewrite nth_error_app2 by auto. assert (Hn : nth_error gs (r + P * q) = None).
      { apply nth_error_None. destruct (Nat.le_gt_cases (length gs) (r + P * q)) as [|Hlt]; auto. apply (mine_length_lt P r gs q HP) in Hlt. lia. }
      rewrite Hn. rewrite nth_error_repeat; auto. lia.
Qed.

(** Where item i of the stream ends up: process i mod P, position i / P, and nowhere else. *)
Theorem iterator_once N B P (gs : list A) i g : 0 < B -> 0 < P -> B mod P = 0 -> length gs <= N -> nth_error gs i = Some g ->
  (exists out, get_iterator N B P (i mod P) gs = Some out /\ nth_error (concat out) (i / P) = Some (Real i g))
  /\ (forall r out q g', r < P -> get_iterator N B P r gs = Some out -> nth_error (concat out) q = Some (Real i g') -> r = i mod P /\ q = i / P /\ g' = g).
Proof.
  intros HB HP HBP HN Hi. split.
  - destruct (iterator_spec N B P (i mod P) gs HB ltac:(apply Nat.mod_upper_bound; lia) HBP HN) as (out & H1 & H2 & H3 & H4).
    exists out. split; auto. pose proof (Nat.div_mod i P ltac:(lia)) as Hdm. rewrite H4.
    + replace (i mod P + P * (i / P)) with i by lia. rewrite Hi. reflexivity.
    + destruct (total_batches_ceil N B HB) as [T1 _]. assert (i < length gs) by (apply nth_error_Some; congruence).
      assert (HBl : B = P * (B / P)) by (pose proof (Nat.div_mod B P ltac:(lia)); lia).
      apply Nat.div_lt_upper_bound; [lia|]. nia.
  - intros r out q g' Hr Ho Hq. destruct (iterator_spec N B P r gs HB Hr HBP HN) as (out' & H1 & H2 & H3 & H4).
    assert (out' = out) by congruence. subst out'.
    assert (Hlt : q < total_batches N B * (B / P)).
    { rewrite <- H2, <- (concat_length (B / P) out H3). apply nth_error_Some. congruence. }
    rewrite H4 in Hq by auto. destruct (nth_error gs (r + P * q)) as [g0|] eqn:E; [|discriminate]. injection Hq as Hi' Hg. subst.
    rewrite E in Hi. split; [|split; [|congruence]].
    + rewrite Nat.mul_comm, Nat.mod_add, Nat.mod_small by lia. reflexivity.
    + rewrite Nat.mul_comm, Nat.div_add, Nat.div_small by lia. reflexivity.
Qed.
End Iter.

(** A configured instance count below the true one loses the last graphs. *)
Lemma iterator_drops : exists (gs : list nat) N B out, get_iterator N B 1 0 gs = Some out /\ 0 < N /\
  exists i g, nth_error gs i = Some g /\ ~ In (Real i g) (concat out).
Proof.
  exists [7; 8; 9], 2, 2, [[Real 0 7; Real 1 8]]. split; [reflexivity|]. split; [lia|]. exists 2, 9. split; [reflexivity|].
  cbn. intuition discriminate.
Qed.
