From Coq Require Import List Bool Reals Arith Lia Lra Permutation.
From Verif.Base Require Import RSum.
From Verif.Spec Require Import BleuSpec.
From Verif.Model Require Import Bleu.
From Verif.Model Require Tools.
Import ListNotations.

Lemma filter_short {A} (p : A -> bool) l : length (filter p l) <= length l.
Proof. induction l as [|a l IH]; cbn; [lia|]. destruct (p a); cbn; lia. Qed.
Lemma filter_full {A} (p : A -> bool) l : length (filter p l) = length l -> forall a, In a l -> p a = true.
Proof.
  induction l as [|b l IH]; intros H a Ha; [destruct Ha|]. cbn in H. pose proof (filter_short p l). destruct (p b) eqn:E; cbn in H; [|lia]. destruct Ha as [<-|Ha]; [exact E|]. apply IH; [lia|exact Ha].
Qed.
Lemma filter_all {A} (p : A -> bool) l : (forall a, In a l -> p a = true) -> filter p l = l.
Proof. induction l as [|b l IH]; intros H; [reflexivity|]. cbn. rewrite (H b (or_introl eq_refl)), IH; [reflexivity|]. intros a Ha. apply H. right. exact Ha. Qed.
Lemma filter_seq_le L n : 1 <= n -> filter (fun i => i + n <=? L) (seq 0 L) = seq 0 (L + 1 - n).
Proof.
  intros Hn. assert (H : forall a m, a + m <= L -> L + 1 - n <= a + m -> filter (fun i => i + n <=? L) (seq a m) = seq a (L + 1 - n - a)).
  { intros a m. revert a. induction m as [|m IH]; intros a H1 H2; cbn [seq filter].
    - replace (L + 1 - n - a) with 0 by lia. reflexivity.
    - rewrite IH by lia. destruct (Nat.leb_spec (a + n) L).
      + replace (L + 1 - n - a) with (S (L + 1 - n - S a)) by lia. reflexivity.
      + replace (L + 1 - n - a) with 0 by lia. replace (L + 1 - n - S a) with 0 by lia. reflexivity. }
  rewrite (H 0 L); [f_equal; lia|lia|lia].
Qed.

Section Clip.
Context {B : Type} (dec : forall a b : B, {a = b} + {a <> b}) (M : B -> nat).
Definition csum (U l : list B) : nat := list_sum (map (fun u => Nat.min (count_occ dec l u) (M u)) U).
Lemma csum_snoc U l g : NoDup U -> In g U -> csum U (l ++ [g]) = csum U l + (if S (count_occ dec l g) <=? M g then 1 else 0).
Proof.
  intros HU Hg. unfold csum. induction HU as [|u U Hu HU IH]; [destruct Hg|]. cbn [map list_sum fold_right].
  change (fold_right Nat.add 0) with list_sum. rewrite count_occ_app. cbn [count_occ].
  destruct (dec g u) as [->|N].
  - assert (E : map (fun v => Nat.min (count_occ dec (l ++ [u]) v) (M v)) U = map (fun v => Nat.min (count_occ dec l v) (M v)) U).
    { apply map_ext_in. intros v Hv. rewrite count_occ_app. cbn [count_occ]. destruct (dec u v) as [->|]; [contradiction|]. rewrite Nat.add_0_r. reflexivity. }
    rewrite E. destruct (Nat.leb_spec (S (count_occ dec l u)) (M u)); lia.
  - destruct Hg as [->|Hg]; [contradiction|]. rewrite (IH Hg). lia.
Qed.
Lemma csum_nil U : csum U [] = 0.
Proof. unfold csum. induction U; cbn; [reflexivity|exact IHU]. Qed.
Lemma csum_seq (f : nat -> B) U m : NoDup U -> (forall i, i < m -> In (f i) U) -> forall k, k <= m ->
  csum U (map f (seq 0 k)) = length (filter (fun i => S (count_occ dec (map f (seq 0 i)) (f i)) <=? M (f i)) (seq 0 k)).
Proof.
  intros HU HI. induction k as [|k IH]; intros Hk; [apply csum_nil|]. rewrite seq_S, map_app. cbn [map Nat.add]. rewrite csum_snoc by (try apply HI; auto; lia). rewrite IH by lia.
  rewrite filter_app, app_length. f_equal. cbn [filter]. destruct (_ <=? _); reflexivity.
Qed.
End Clip.

Section Words.
Context {word : Type} (word_dec : forall a b : word, {a = b} + {a <> b}).
Notation sent := (list word).
Notation gram_dec := (Tools.gram_dec word word_dec).
Notation ngrams := (Tools.ngrams word).
Notation times := (times word word_dec). Notation times_to := (times_to word word_dec). Notation at_pos := (at_pos word). Notation starts := (starts word).
Notation same := (same word word_dec). Notation credited := (credited word word_dec). Notation matched := (matched word word_dec).

Lemma same_iff a b : same a b = true <-> a = b.
Proof. unfold BleuSpec.same. destruct (list_eq_dec word_dec a b); split; intros; auto; discriminate. Qed.
Lemma starts_seq n (s : sent) : 1 <= n -> starts n s = seq 0 (length s + 1 - n).
Proof. intros Hn. apply filter_seq_le. exact Hn. Qed.
Lemma ngrams_starts n (s : sent) : 1 <= n -> ngrams n s = map (at_pos n s) (starts n s).
Proof. intros Hn. rewrite starts_seq by exact Hn. reflexivity. Qed.
Lemma count_map {A} (f : A -> sent) l g : count_occ gram_dec (map f l) g = length (filter (fun i => same (f i) g) l).
Proof.
  induction l as [|a l IH]; cbn [map count_occ filter]; [reflexivity|]. unfold BleuSpec.same at 1. unfold Tools.gram_dec in *. destruct (list_eq_dec word_dec (f a) g); cbn [length]; rewrite IH; reflexivity.
Qed.
Lemma at_pos_length n (s : sent) i : 1 <= n -> In i (starts n s) -> length (at_pos n s i) = n.
Proof. intros Hn Hi. rewrite starts_seq in Hi by exact Hn. apply in_seq in Hi. unfold BleuSpec.at_pos. rewrite firstn_length, skipn_length. lia. Qed.
Lemma times_count n g (s : sent) : 1 <= n -> length g = n -> count_occ gram_dec (ngrams n s) g = times g s.
Proof. intros Hn Hg. rewrite ngrams_starts, count_map by exact Hn. unfold BleuSpec.times. rewrite Hg. reflexivity. Qed.
Lemma times_to_count n (h : sent) i : 1 <= n -> In i (starts n h) -> times_to (at_pos n h i) h i = S (count_occ gram_dec (map (at_pos n h) (seq 0 i)) (at_pos n h i)).
Proof.
  intros Hn Hi. unfold BleuSpec.times_to. rewrite (at_pos_length n h i Hn Hi). rewrite count_map. rewrite starts_seq in * by exact Hn. apply in_seq in Hi.
  replace (length h + 1 - n) with (i + S (length h + 1 - n - i - 1)) by lia. rewrite seq_app, filter_app, app_length. cbn [seq filter Nat.add].
  rewrite (proj2 (same_iff _ _) eq_refl), Nat.leb_refl. cbn [andb length].
  rewrite (filter_ext_in _ (fun j => same (at_pos n h j) (at_pos n h i)) (seq 0 i)) by (intros j Hj; apply in_seq in Hj; rewrite (proj2 (Nat.leb_le j i)) by lia; apply andb_true_r).
  assert (E : forall m, filter (fun j => same (at_pos n h j) (at_pos n h i) && (j <=? i)) (seq (S i) m) = []).
  { intros m. assert (Q : forall a, i < a -> filter (fun j => same (at_pos n h j) (at_pos n h i) && (j <=? i)) (seq a m) = []); [|apply Q; lia].
    induction m as [|m IH]; intros a Ha; [reflexivity|]. cbn [seq filter]. rewrite (proj2 (Nat.leb_gt a i)) by lia. rewrite andb_false_r. apply IH. lia. }
  rewrite E. cbn [length]. lia.
Qed.
Lemma max_count_ge n refs g t : 1 <= n -> length g = n -> 1 <= t -> (t <=? max_count word word_dec n refs g) = existsb (fun r => t <=? times g r) refs.
Proof.
  intros Hn Hg Ht. unfold max_count. induction refs as [|r refs IH]; cbn [map fold_right existsb]; [apply Nat.leb_gt; lia|].
  rewrite <- IH, (times_count n) by assumption. destruct (Nat.leb_spec t (times g r)); cbn [orb]; [apply Nat.leb_le; lia|].
  match goal with |- _ = (t <=? ?m) => destruct (Nat.leb_spec t m); [apply Nat.leb_le|apply Nat.leb_gt]; lia end.
Qed.
Lemma clipped_matched n refs (h : sent) : 1 <= n -> clipped word word_dec n refs h = matched n refs h.
Proof.
  intros Hn. unfold clipped, BleuSpec.matched. rewrite ngrams_starts by exact Hn.
  change (csum gram_dec (max_count word word_dec n refs) (nodup gram_dec (map (at_pos n h) (starts n h))) (map (at_pos n h) (starts n h)) = length (filter (credited n refs h) (starts n h))).
  pose proof (starts_seq n h Hn) as E. rewrite E at 2 3. set (m := length h + 1 - n) in *.
  rewrite (csum_seq gram_dec (max_count word word_dec n refs) (at_pos n h) _ m) with (k := m); [|apply NoDup_nodup| |lia].
  - f_equal. apply filter_ext_in. intros i Hi. rewrite <- E in Hi. unfold BleuSpec.credited. rewrite (times_to_count n h i Hn Hi). apply max_count_ge; [exact Hn|apply at_pos_length; assumption|lia].
  - intros i Hi. apply nodup_In. rewrite E. apply in_map, in_seq. lia.
Qed.
Lemma matched_le n refs h : matched n refs h <= length (starts n h).
Proof. unfold BleuSpec.matched. apply filter_short. Qed.

(** ** The closest reference *)
Notation closest := (closest word). Notation penalty := (penalty word). Notation hits := (hits word word_dec). Notation tries := (tries word). Notation precision := (precision word word_dec).
Lemma closer_spec hl a b : closer hl a b = true <-> distance a hl < distance b hl \/ (distance a hl = distance b hl /\ a < b).
Proof.
  unfold closer, gap, distance. rewrite orb_true_iff, andb_true_iff, !Nat.ltb_lt, Nat.eqb_eq. lia.
Qed.
Lemma closest_ref_some refs hl : refs <> [] -> exists rl, closest_ref word refs hl = Some rl /\ closest refs hl rl.
Proof.
  intros N. unfold closest_ref, BleuSpec.closest. destruct refs as [|r refs]; [contradiction|]. cbn [map]. eexists. split; [reflexivity|].
  set (pick := fun b a : nat => if closer hl a b then a else b).
  assert (H : forall l b, In (fold_left pick l b) (b :: l) /\ forall a, In a (b :: l) -> distance (fold_left pick l b) hl < distance a hl \/ (distance (fold_left pick l b) hl = distance a hl /\ fold_left pick l b <= a)).
  { induction l as [|a l IH]; intros b; cbn [fold_left]; [split; [left; reflexivity|intros c [->|[]]; right; lia]|].
    destruct (IH (pick b a)) as [I1 I2]. assert (P : pick b a = a \/ pick b a = b) by (unfold pick; destruct (closer hl a b); auto). split.
    - destruct I1 as [E|E]; [rewrite <- E; cbn; intuition|cbn; auto].
    - assert (Q : forall c, c = a \/ c = b -> distance (pick b a) hl < distance c hl \/ (distance (pick b a) hl = distance c hl /\ pick b a <= c)).
      { unfold pick. destruct (closer hl a b) eqn:E; intros c Hc.
        - apply closer_spec in E. destruct Hc; subst; lia.
        - assert (E' : ~ (distance a hl < distance b hl \/ (distance a hl = distance b hl /\ a < b))) by (rewrite <- closer_spec, E; discriminate). destruct Hc; subst; lia. }
      intros c [->|[->|Hc]].
      + specialize (Q c (or_intror eq_refl)). specialize (I2 (pick c a) (or_introl eq_refl)). lia.
      + specialize (Q c (or_introl eq_refl)). specialize (I2 (pick b c) (or_introl eq_refl)). lia.
      + apply I2. right. exact Hc. }
  destruct (H (map (@length word) refs) (length r)) as [H1 H2]. split; [exact H1|]. intros q Hq. apply H2. destruct Hq as [<-|Hq]; [left; reflexivity|right; apply in_map; exact Hq].
Qed.
Lemma closest_unique refs hl a b : closest refs hl a -> closest refs hl b -> a = b.
Proof.
  intros [A1 A2] [B1 B2]. apply in_map_iff in A1, B1. destruct A1 as (r & <- & Hr), B1 as (q & <- & Hq). specialize (A2 q Hq). specialize (B2 r Hr). lia.
Qed.
Lemma closest_ref_iff refs hl rl : closest_ref word refs hl = Some rl <-> closest refs hl rl.
Proof.
  split; intros H.
  - destruct (closest_ref_some refs hl) as (rl' & E & C); [destruct refs; [discriminate|discriminate]|]. rewrite H in E. injection E as <-. exact C.
  - destruct (closest_ref_some refs hl) as (rl' & E & C); [destruct refs; [destruct H as [[] _]|discriminate]|]. rewrite E. f_equal. eapply closest_unique; eassumption.
Qed.

(** ** The scores of a corpus *)
Lemma all_some_map {A B} (f : A -> option B) (g : A -> B) l : (forall a, In a l -> f a = Some (g a)) -> all_some (map f l) = Some (map g l).
Proof. induction l as [|a l IH]; intros H; [reflexivity|]. cbn [map all_some]. rewrite (H a (or_introl eq_refl)), IH; [reflexivity|]. intros b Hb. apply H. right. exact Hb. Qed.
Lemma all_some_none {A B} (f : A -> option B) l : (exists a, In a l /\ f a = None) -> all_some (map f l) = None.
Proof.
  induction l as [|a l IH]; intros (b & Hb & E); [destruct Hb|]. cbn [map all_some]. destruct Hb as [->|Hb]; [rewrite E; reflexivity|]. rewrite (IH (ex_intro _ b (conj Hb E))).
  destruct (f a); reflexivity.
Qed.
Lemma add2_sums l : fold_right add2 (0, 0) l = (list_sum (map fst l), list_sum (map snd l)).
Proof. induction l as [|p l IH]; [reflexivity|]. cbn [fold_right map list_sum]. rewrite IH. reflexivity. Qed.
Definition corpus := list (list sent * sent).
Definition fine (c : corpus) : Prop := c <> [] /\ forall p, In p c -> fst p <> [].
Definition lenc (c : corpus) : nat := list_sum (map (fun p => length (snd p)) c).
Definition rlens (c : corpus) : list nat := map (fun p => match closest_ref word (fst p) (length (snd p)) with Some r => r | None => 0 end) c.
Definition bpc (c : corpus) : R := brevity (list_sum (rlens c)) (lenc c).
Definition smc (c : corpus) (n : nat) : R := if hits n c =? 0 then float_min else precision n c.
Lemma tries_pos n c : c <> [] -> 1 <= tries n c.
Proof. intros H. destruct c as [|p c]; [contradiction|]. unfold BleuSpec.tries. cbn [map list_sum fold_right]. lia. Qed.
Lemma bleu_scores_fine (c : corpus) weights : fine c -> weights <> [] -> (forall w, In w weights -> w <> []) ->
  bleu_scores word word_dec c weights = Some (if hits 1 c =? 0 then map (fun _ => 0%R) weights else
    map (fun w => (bpc c * exp (rsum (combine w (map (smc c) (seq 1%nat (fold_right Nat.max 0%nat (map (@length R) weights))))) (fun wp => fst wp * ln (snd wp))))%R) weights).
Proof.
  intros [Hc Hr] Hw Hne. unfold bleu_scores. set (N := fold_right Nat.max 0 (map (@length R) weights)).
  assert (HN : 1 <= N). { unfold N. destruct weights as [|w ws]; [contradiction|]. cbn [map fold_right]. specialize (Hne w (or_introl eq_refl)). destruct w; [contradiction|cbn [length]; lia]. }
  rewrite (all_some_map _ (fun n => (hits n c, tries n c))).
  2: { intros n Hn. apply in_seq in Hn. rewrite (all_some_map _ (fun p => (matched n (fst p) (snd p), Nat.max 1 (length (starts n (snd p)))))).
    - cbn [option_map]. rewrite add2_sums, !map_map. reflexivity.
    - intros p Hp. unfold modified_precision. specialize (Hr p Hp). destruct (fst p) as [|r rs] eqn:E; [contradiction|]. rewrite clipped_matched by lia. rewrite ngrams_starts, map_length by lia. reflexivity. }
  rewrite (all_some_map _ (fun p => match closest_ref word (fst p) (length (snd p)) with Some r => r | None => 0 end)).
  2: { intros p Hp. destruct (closest_ref_some (fst p) (length (snd p)) (Hr p Hp)) as (rl & E & _). rewrite E. reflexivity. }
  assert (Ex : existsb (fun nd : nat * nat => snd nd =? 0) (map (fun n => (hits n c, tries n c)) (seq 1 N)) = false).
  { apply not_true_iff_false. rewrite existsb_exists. intros (nd & Hi & E). apply in_map_iff in Hi. destruct Hi as (n & <- & _). cbn in E. apply Nat.eqb_eq in E. pose proof (tries_pos n c Hc). lia. }
  rewrite Ex. destruct N as [|N]; [lia|]. cbn [seq map]. cbn [fst]. destruct (hits 1 c =? 0) eqn:E1; [reflexivity|]. f_equal. apply map_ext. intros w. rewrite map_map. reflexivity.
Qed.
Lemma some_empty (c : corpus) : (exists q, In q c /\ fst q = []) \/ forall q, In q c -> fst q <> [].
Proof.
  induction c as [|q l IH]; [right; intros q []|]. destruct (fst q) as [|r rs] eqn:E; [left; exists q; split; [left; reflexivity|exact E]|].
  destruct IH as [(q' & Hq & Eq)|IH]; [left; exists q'; split; [right; exact Hq|exact Eq]|]. right. intros q' [<-|Hq]; [rewrite E; discriminate|auto].
Qed.
Lemma bleu_scores_fails (c : corpus) weights : weights <> [] -> (forall w, In w weights -> w <> []) -> ~ fine c -> bleu_scores word word_dec c weights = None.
Proof.
  intros Hw Hne Hf. unfold bleu_scores. set (N := fold_right Nat.max 0 (map (@length R) weights)).
  assert (HN : 1 <= N). { unfold N. destruct weights as [|w ws]; [contradiction|]. cbn [map fold_right]. specialize (Hne w (or_introl eq_refl)). destruct w; [contradiction|cbn [length]; lia]. }
  destruct c as [|p c].
  - rewrite (all_some_map _ (fun _ => (0, 0))) by reflexivity. destruct N; [lia|]. reflexivity.
  - assert (X : exists q, In q (p :: c) /\ fst q = []).
    { destruct (some_empty (p :: c)) as [D|D]; [exact D|]. exfalso. apply Hf. split; [discriminate|exact D]. }
    destruct X as (q & Hq & Eq). rewrite (all_some_none (fun p0 => closest_ref word (fst p0) (length (snd p0))) (p :: c)).
    + destruct (all_some _); reflexivity.
    + exists q. split; [exact Hq|]. rewrite Eq. reflexivity.
Qed.
Lemma Forall2_rlens c : (forall p, In p c -> fst p <> []) -> Forall2 (fun p rl => closest (fst p) (length (snd p)) rl) c (rlens c).
Proof.
  induction c as [|p c IH]; intros H; [constructor|]. constructor; [|apply IH; intros q Hq; apply H; right; exact Hq].
  destruct (closest_ref_some (fst p) (length (snd p)) (H p (or_introl eq_refl))) as (rl & E & C). rewrite E. exact C.
Qed.
Lemma rlens_unique c rls : Forall2 (fun p rl => closest (fst p) (length (snd p)) rl) c rls -> rls = rlens c.
Proof. induction 1 as [|p rl c rls H _ IH]; [reflexivity|]. cbn [rlens map]. apply closest_ref_iff in H. rewrite H. f_equal. exact IH. Qed.
Lemma penalty_iff c b : (forall p, In p c -> fst p <> []) -> (penalty c b <-> b = bpc c).
Proof.
  intros Hr. unfold BleuSpec.penalty, bpc, brevity, lenc. split.
  - intros (rls & F & H). apply rlens_unique in F. subst rls. cbv zeta in H. destruct H as [(A & B & ->)|[(A & B & ->)|[A ->]]].
    + destruct (Nat.ltb_spec (list_sum (rlens c)) (list_sum (map (fun p => length (snd p)) c))); [reflexivity|]. replace (list_sum (rlens c)) with (list_sum (map (fun p => length (snd p)) c)) by lia.
      destruct (Nat.eqb_spec (list_sum (map (fun p => length (snd p)) c)) 0); [lia|]. apply lt_INR in B. cbn [INR] in B. unfold Rdiv. rewrite Rinv_r, Rminus_diag_eq, exp_0 by lra. reflexivity.
    + rewrite (proj2 (Nat.ltb_ge _ _)) by lia. rewrite (proj2 (Nat.eqb_neq _ _)) by lia. reflexivity.
    + rewrite A. cbn [Nat.ltb Nat.leb Nat.eqb]. destruct (list_sum (rlens c)); reflexivity.
  - intros ->. exists (rlens c). split; [apply Forall2_rlens; exact Hr|]. cbv zeta. set (hl := list_sum (map (fun p => length (snd p)) c)). set (rl := list_sum (rlens c)).
    destruct (Nat.eqb_spec hl 0) as [E|E]; [right; right; split; [exact E|]; rewrite (proj2 (Nat.ltb_ge _ _)) by lia; reflexivity|].
    destruct (Nat.ltb_spec rl hl); [left; repeat split; lia|]. destruct (Nat.eq_dec rl hl) as [E2|E2].
    + left. split; [lia|]. split; [lia|]. rewrite E2. assert (0 < INR hl)%R by (apply lt_0_INR; lia). unfold Rdiv. rewrite Rinv_r by lra. rewrite Rminus_diag_eq by reflexivity. apply exp_0.
    + right; left. repeat split; lia.
Qed.
End Words.
