(** Proofs about the training tools. *)
From Coq Require Import Reals List Arith ZArith Lia Lra.
From Verif.Base Require Import RSum.
From Verif.Spec Require Import TrainSpec.
From Verif.Model Require Import Experiment Training.
From Verif.Proof Require Import ExperimentProof.
Import ListNotations.
Local Open Scope R_scope.

(** ** Replay buffer *)
Lemma set_nth_length {A} i (v : A) l : length (set_nth i v l) = length l.
Proof. revert i. induction l as [|a l IH]; intros [|i]; cbn; auto. Qed.
Lemma set_nth_error {A} i (v : A) l j : (i < length l)%nat -> nth_error (set_nth i v l) j = if Nat.eqb j i then Some v else nth_error l j.
Proof.
  revert i j. induction l as [|a l IH]; intros i j H; cbn [length] in H; [lia|]. destruct i as [|i], j as [|j]; cbn [set_nth nth_error Nat.eqb]; auto.
  apply IH. lia.
Qed.
Lemma set_nth_in {A} i (v : A) l r : In r (set_nth i v l) -> r = v \/ In r l.
Proof.
  revert i. induction l as [|a l IH]; intros [|i] H; cbn [set_nth] in H; [destruct H|destruct H|destruct H as [<-|H]; [left|right; right]; auto|].
  destruct H as [<-|H]; [right; left; auto|]. destruct (IH i H); [left|right; right]; auto.
Qed.
Definition writes (ivs : list (nat * row)) (b : list row) : list row := fold_left (fun b iv => set_nth (fst iv) (snd iv) b) ivs b.
Lemma writes_length ivs b : length (writes ivs b) = length b.
Proof. unfold writes. revert b. induction ivs as [|iv ivs IH]; intros b; cbn [fold_left]; [reflexivity|]. rewrite IH, set_nth_length. reflexivity. Qed.
Lemma writes_in ivs b r : In r (writes ivs b) -> In r (map snd ivs) \/ In r b.
Proof.
  unfold writes. revert b. induction ivs as [|iv ivs IH]; intros b H; cbn [fold_left map] in *; [right; auto|].
  destruct (IH _ H) as [H'|H']; [left; right; auto|]. apply set_nth_in in H'. destruct H' as [->|H']; [left; left; auto|right; auto].
Qed.
Lemma writes_other ivs b j : (forall i, In i (map fst ivs) -> (i < length b)%nat) -> ~ In j (map fst ivs) -> nth_error (writes ivs b) j = nth_error b j.
Proof.
  unfold writes. revert b. induction ivs as [|[i v] ivs IH]; intros b Hr H; cbn [fold_left map fst snd] in *; [reflexivity|].
  rewrite IH.
  - rewrite set_nth_error by (apply Hr; left; auto). destruct (Nat.eqb_spec j i) as [->|]; [exfalso; apply H; left; auto|reflexivity].
  - intros k Hk. rewrite set_nth_length. apply Hr. right; auto.
  - intros Hin; apply H; right; auto.
Qed.
Lemma writes_hit ivs b i v : (forall i, In i (map fst ivs) -> (i < length b)%nat) -> NoDup (map fst ivs) -> In (i, v) ivs -> nth_error (writes ivs b) i = Some v.
Proof.
  revert b. induction ivs as [|[i' v'] ivs IH]; intros b Hr Hn Hin; [destruct Hin|]. cbn [map fst] in *. inversion Hn as [|? ? Hni Hn']; subst.
  change (writes ((i', v') :: ivs) b) with (writes ivs (set_nth i' v' b)).
  assert (Hr' : forall k, In k (map fst ivs) -> (k < length (set_nth i' v' b))%nat) by (intros k Hk; rewrite set_nth_length; apply Hr; right; auto).
  destruct Hin as [E|Hin].
  - injection E as -> ->. rewrite writes_other by auto. rewrite set_nth_error by (apply Hr; left; auto). rewrite Nat.eqb_refl. reflexivity.
  - apply IH; auto.
Qed.
Lemma map_fst_combine {A B} (l : list A) (l' : list B) : length l' = length l -> map fst (combine l l') = l.
Proof. revert l'. induction l as [|a l IH]; intros [|b l'] H; try discriminate; [reflexivity|]. cbn. f_equal. apply IH. auto. Qed.
Lemma map_snd_combine {A B} (l : list A) (l' : list B) : length l' = length l -> map snd (combine l l') = l'.
Proof. revert l'. induction l as [|a l IH]; intros [|b l'] H; try discriminate; [reflexivity|]. cbn. f_equal. apply IH. auto. Qed.
Lemma combine_nth_in {A B} (l : list A) (l' : list B) k a b : nth_error l k = Some a -> nth_error l' k = Some b -> In (a, b) (combine l l').
Proof.
  revert l' k. induction l as [|x l IH]; intros [|y l'] [|k] H1 H2; try discriminate; cbn in *.
  - injection H1 as ->. injection H2 as ->. left; auto.
  - right. eapply IH; eauto.
Qed.
Definition broadcast (x : list row) (n : nat) : list row := match x with [v] => repeat v n | _ => x end.
Lemma rb_update_inv b x inds b' : rb_update (Some b) x inds = Some b' ->
  (forall i, In i inds -> (i < length b)%nat) /\ length (broadcast x (length inds)) = length inds /\ b' = writes (combine inds (broadcast x (length inds))) b.
Proof.
  unfold rb_update. fold (broadcast x (length inds)). destruct (forallb (fun i => Nat.ltb i (length b)) inds) eqn:E; [|discriminate].
  destruct (Nat.eqb_spec (length (broadcast x (length inds))) (length inds)) as [El|]; [|discriminate]. intros H. injection H as <-.
  split; [|split; auto]. intros i Hi. rewrite forallb_forall in E. apply Nat.ltb_lt. apply E; auto.
Qed.
Lemma broadcast_in x n r : In r (broadcast x n) -> In r x.
Proof. destruct x as [|v [|v' x]]; cbn; auto. intros H. apply repeat_spec in H. left; auto. Qed.
Theorem rb_run_bounded b ops b' : rb_run (Some b) ops = Some b' -> length b' = length b
  /\ forall r, In r b' -> In r b \/ exists x inds, In (x, inds) ops /\ In r x.
Proof.
  revert b. induction ops as [|[x inds] ops IH]; intros b H; cbn [rb_run] in H; [injection H as <-; auto|].
  destruct (rb_update (Some b) x inds) as [b1|] eqn:E; [|destruct ops; discriminate + (cbn in H; destruct p; discriminate)].
  destruct (rb_update_inv b x inds b1 E) as (Hr & Hl & ->). destruct (IH _ H) as [Hlen Hin]. rewrite writes_length in Hlen. split; auto.
  intros r Hr'. destruct (Hin r Hr') as [H1|(x' & i' & H1 & H2)].
  - apply writes_in in H1. destruct H1 as [H1|H1]; auto. rewrite map_snd_combine in H1 by auto. right. exists x, inds. split; [left; auto|]. eapply broadcast_in; eauto.
  - right. exists x', i'. split; auto. right; auto.
Qed.
Theorem rb_update_exact b x inds b' : NoDup inds -> length x = length inds -> rb_update (Some b) x inds = Some b' ->
  (forall k i r, nth_error inds k = Some i -> nth_error x k = Some r -> nth_error b' i = Some r)
  /\ forall i, ~ In i inds -> nth_error b' i = nth_error b i.
Proof.
  intros Hn Hlen H. destruct (rb_update_inv b x inds b' H) as (Hr & Hl & ->).
  assert (Eb : broadcast x (length inds) = x).
  { destruct x as [|v [|v' x]]; auto. cbn. rewrite <- Hlen. reflexivity. }
  rewrite Eb in *. assert (Ef : map fst (combine inds x) = inds) by (apply map_fst_combine; auto). split.
  - intros k i r Hi Hx. apply writes_hit; rewrite ?Ef; auto. eapply combine_nth_in; eauto.
  - intros i Hni. apply writes_other; rewrite Ef; auto.
Qed.
Theorem rb_update_ok b x inds : (forall i, In i inds -> (i < length b)%nat) -> length x = length inds -> exists b', rb_update (Some b) x inds = Some b'.
Proof.
  intros Hr Hl. unfold rb_update. fold (broadcast x (length inds)).
  replace (forallb (fun i => Nat.ltb i (length b)) inds) with true by (symmetry; apply forallb_forall; intros i Hi; apply Nat.ltb_lt; auto).
  assert (Eb : broadcast x (length inds) = x) by (destruct x as [|v [|v' x]]; auto; cbn; rewrite <- Hl; reflexivity).
  rewrite Eb, Hl, Nat.eqb_refl. eexists; reflexivity.
Qed.
Lemma gather_spec b inds st : gather_rows b inds = Some st -> length st = length inds /\ forall k i, nth_error inds k = Some i -> nth_error st k = nth_error b i /\ (i < length b)%nat.
Proof.
  revert st. induction inds as [|i inds IH]; intros st H; cbn [gather_rows] in H; [injection H as <-; split; auto; intros [|k] i H; discriminate|].
  destruct (nth_error b i) as [r|] eqn:Er; [|discriminate]. destruct (gather_rows b inds) as [rs|]; [|discriminate]. injection H as <-. destruct (IH rs eq_refl) as [IH1 IH2].
  split; [cbn; lia|]. intros [|k] j Hj; cbn [nth_error] in *; [injection Hj as <-; split; auto; apply nth_error_Some; congruence|apply IH2; auto].
Qed.
Lemma gather_ok b inds : (forall i, In i inds -> (i < length b)%nat) -> exists st, gather_rows b inds = Some st.
Proof.
  induction inds as [|i inds IH]; intros H; cbn [gather_rows]; [eexists; reflexivity|]. destruct IH as [st ->]; [intros; apply H; right; auto|].
  destruct (nth_error b i) eqn:E; [eexists; reflexivity|]. apply nth_error_None in E. specialize (H i (or_introl eq_refl)). lia.
Qed.
Lemma mix_row_1 f s : length f = length s -> mix_row 1 f s = f.
Proof. unfold mix_row. revert s. induction f as [|a f IH]; intros [|c s] H; try discriminate; [reflexivity|]. cbn [combine map fst snd]. f_equal; [lia|]. apply IH. auto. Qed.
Lemma mix_row_0 f s : length f = length s -> mix_row 0 f s = s.
Proof. unfold mix_row. revert s. induction f as [|a f IH]; intros [|c s] H; try discriminate; [reflexivity|]. cbn [combine map fst snd]. f_equal; [lia|]. apply IH. auto. Qed.
Lemma mix_rows_nth rs fresh st k r f s : nth_error rs k = Some r -> nth_error fresh k = Some f -> nth_error st k = Some s -> nth_error (mix_rows rs fresh st) k = Some (mix_row r f s).
Proof.
  revert fresh st k. induction rs as [|r0 rs IH]; intros [|f0 fresh] [|s0 st] [|k] H1 H2 H3; try discriminate; cbn in *.
  - injection H1 as ->. injection H2 as ->. injection H3 as ->. reflexivity.
  - apply IH; auto.
Qed.
Lemma mix_rows_length rs fresh st n : length rs = n -> length fresh = n -> length st = n -> length (mix_rows rs fresh st) = n.
Proof.
  revert fresh st n. induction rs as [|r rs IH]; intros [|f fresh] [|s st] n H1 H2 H3; cbn in *; try congruence. destruct n; [discriminate|].
  injection H1 as H1. injection H2 as H2. injection H3 as H3. f_equal. apply IH; auto.
Qed.
Theorem rb_sample_rows w (b : list row) inds reinit (fresh : list row) : (forall r, In r b -> length r = w) -> (forall r, In r fresh -> length r = w) ->
  (forall r, In r reinit -> (r = 0 \/ r = 1)%Z) -> length reinit = length inds -> length fresh = length inds ->
  NoDup inds -> (forall i, In i inds -> (i < length b)%nat) ->
  exists xs, rb_sample (Some b) inds reinit fresh = Some (xs, inds) /\ length xs = length inds
  /\ forall k i r, nth_error inds k = Some i -> nth_error reinit k = Some r ->
     nth_error xs k = if Z.eqb r 1 then nth_error fresh k else nth_error b i.
Proof.
  intros Hb Hf Hre Hlr Hlf Hnd Hin. unfold rb_sample.
  assert (Hle : (length inds <= length b)%nat).
  { rewrite <- (seq_length (length b) 0). apply NoDup_incl_length; auto. intros i Hi. apply in_seq. specialize (Hin i Hi). lia. }
  destruct (Nat.ltb_spec (length b) (length inds)); [lia|]. destruct (gather_ok b inds Hin) as [st Hst]. rewrite Hst. destruct (gather_spec b inds st Hst) as [G1 G2].
  eexists. split; [reflexivity|]. split; [apply mix_rows_length; auto|].
  intros k i r Hi Hr. destruct (G2 k i Hi) as [G3 G4]. destruct (nth_error b i) as [s|] eqn:Es; [|apply nth_error_None in Es; lia].
  assert (Hk : (k < length inds)%nat) by (apply nth_error_Some; congruence).
  destruct (nth_error fresh k) as [f|] eqn:Ef; [|apply nth_error_None in Ef; lia].
  rewrite (mix_rows_nth reinit fresh st k r f s Hr Ef G3).
  assert (El : length f = length s) by (rewrite (Hf f), (Hb s); auto; eapply nth_error_In; eauto).
  destruct (Hre r ltac:(eapply nth_error_In; eauto)) as [-> | ->]; cbn [Z.eqb Pos.eqb]; f_equal; [apply mix_row_0|apply mix_row_1]; auto.
Qed.
Lemma rb_too_many (b : list row) inds reinit fresh : (length b < length inds)%nat -> rb_sample (Some b) inds reinit fresh = None.
Proof. intros H. unfold rb_sample. destruct (Nat.ltb_spec (length b) (length inds)); [reflexivity|lia]. Qed.
Lemma rb_categorical nc rows inds reinit fresh : (2 < nc)%nat -> rb_sample (new_buffer nc rows) inds reinit fresh = None.
Proof. intros H. unfold new_buffer. destruct (Nat.ltb_spec 2 nc); [reflexivity|lia]. Qed.
Lemma rsum_range (l : list R) lo hi : (forall v, In v l -> lo <= v <= hi) -> INR (length l) * lo <= rsum l (fun v => v) <= INR (length l) * hi.
Proof.
  induction l as [|a l IH]; intros H; [cbn; lra|]. cbn [rsum length]. rewrite S_INR. specialize (IH ltac:(intros; apply H; right; auto)). specialize (H a (or_introl eq_refl)). lra.
Qed.
Lemma mean_range (l : list R) lo hi : l <> [] -> (forall v, In v l -> lo <= v <= hi) -> lo <= rsum l (fun v => v) / INR (length l) <= hi.
Proof.
  intros Hne H. pose proof (rsum_range l lo hi H) as Hr. assert (0 < INR (length l)) by (apply lt_0_INR; destruct l; [congruence|cbn; lia]).
  split; apply (Rmult_le_reg_r (INR (length l))); auto; unfold Rdiv; rewrite Rmult_assoc, Rinv_l by lra; lra.
Qed.
Theorem init_mean_range col : col <> [] -> (forall v, In v col -> 0 <= v <= 1) -> 1 / 100 <= init_mean col <= 99 / 100.
Proof. intros Hne H. unfold init_mean. pose proof (mean_range col 0 1 Hne H). lra. Qed.

(** ** Moving average *)
Lemma ema_run_snoc d s avg ps p : ema_run d s avg (ps ++ [p]) = ema_update d (s + length ps) (ema_run d s avg ps) p.
Proof.
  revert s avg. induction ps as [|q ps IH]; intros s avg; cbn [app ema_run length]; [rewrite Nat.add_0_r; reflexivity|].
  rewrite IH. f_equal. lia.
Qed.
Lemma ema_first d avg p : ema_run d 0 avg [p] = p.
Proof. cbn. unfold ema_update, apply_ema. cbn. lra. Qed.
Theorem ema_convex d avg ps : 0 <= d <= 1 -> ps <> [] -> convex_combination ps (ema_run d 0 avg ps).
Proof.
  intros Hd. induction ps as [|p ps IH] using rev_ind; intros Hne; [contradiction|]. destruct ps as [|q ps].
  - cbn [app]. rewrite ema_first. exists [1]. cbn. repeat split; try lra. constructor; [lra|constructor].
  - destruct IH as (ws & Hl & Hp & Hs & Ha); [discriminate|]. rewrite ema_run_snoc. unfold ema_update. cbn [length Nat.add Nat.eqb]. rewrite Ha.
    exists (map (fun w => d * w) ws ++ [1 - d]). split; [rewrite !app_length, map_length, Hl; reflexivity|]. split; [|split].
    + apply Forall_app. split; [|constructor; [lra|constructor]]. apply Forall_forall. intros w Hw. apply in_map_iff in Hw. destruct Hw as (w' & <- & Hw').
      rewrite Forall_forall in Hp. apply Rmult_le_pos; [lra|]. apply Hp; auto.
    + rewrite rsum_app, rsum_map, rsum_scal, Hs. cbn. lra.
    + unfold apply_ema. assert (K : combine (map (fun w => d * w) ws ++ [1 - d]) ((q :: ps) ++ [p]) = combine (map (fun w => d * w) ws) (q :: ps) ++ [(1 - d, p)]).
      { clear -Hl. revert Hl. generalize (q :: ps). intros l. revert ws. induction l as [|a l IH]; intros [|w ws] Hl; try discriminate; [reflexivity|]. cbn. f_equal. apply IH. auto. }
      rewrite K, rsum_app. cbn [rsum fst snd]. f_equal; [|lra]. rewrite <- rsum_scal.
      clear. generalize (q :: ps). intros l. revert ws. induction l as [|a l IH]; intros [|w ws]; try reflexivity. cbn [map combine rsum fst snd]. rewrite IH. lra.
Qed.
Theorem ema_closed d avg p1 ps : ema_run d 0 avg (p1 :: ps)
  = d ^ length ps * p1 + rsum (combine (seq 0 (length ps)) ps) (fun ip => (1 - d) * d ^ (length ps - 1 - fst ip) * snd ip).
Proof.
  induction ps as [|p ps IH] using rev_ind; [cbn; unfold ema_update, apply_ema; cbn; lra|].
  rewrite app_comm_cons, ema_run_snoc, IH. unfold ema_update. cbn [length Nat.add Nat.eqb]. unfold apply_ema. rewrite app_length. cbn [length].
  rewrite Nat.add_1_r, seq_S. assert (K : combine (seq 0 (length ps) ++ [0 + length ps]%nat) (ps ++ [p]) = combine (seq 0 (length ps)) ps ++ [(length ps, p)]).
  { assert (G : forall (l1 l1' : list nat) (l2 l2' : list R), length l1 = length l2 -> combine (l1 ++ l1') (l2 ++ l2') = combine l1 l2 ++ combine l1' l2').
    { clear. induction l1 as [|a l1 IH]; intros l1' [|c l2] l2' H; try discriminate; [reflexivity|]. cbn. f_equal. apply IH. auto. }
    rewrite G by apply seq_length. reflexivity. }
  rewrite K, rsum_app. cbn [rsum fst snd]. replace (S (length ps) - 1 - length ps)%nat with 0%nat by lia. cbn [pow].
  rewrite Rmult_plus_distr_l, <- rsum_scal.
  rewrite (rsum_ext (combine (seq 0 (length ps)) ps) (fun ip => (1 - d) * d ^ (S (length ps) - 1 - fst ip) * snd ip) (fun ip => d * ((1 - d) * d ^ (length ps - 1 - fst ip) * snd ip))); [ring|].
  intros [i v] Hin. cbn [fst snd]. apply in_combine_l in Hin. apply in_seq in Hin. replace (S (length ps) - 1 - i)%nat with (S (length ps - 1 - i)) by lia. cbn [pow]. ring.
Qed.
Lemma convex_bounds ps a lo hi : convex_combination ps a -> (forall p, In p ps -> lo <= p <= hi) -> lo <= a <= hi.
Proof.
  intros (ws & Hl & Hp & Hs & ->). revert ws Hl Hp Hs. 
  assert (K : forall ps ws, length ws = length ps -> Forall (Rle 0) ws -> (forall p, In p ps -> lo <= p <= hi) ->
    rsum ws (fun w => w) * lo <= rsum (combine ws ps) (fun wp => fst wp * snd wp) <= rsum ws (fun w => w) * hi).
  { clear. induction ps as [|p ps IH]; intros [|w ws] Hl Hp H; try discriminate; [cbn; lra|]. cbn [combine rsum fst snd]. inversion Hp; subst.
    specialize (IH ws ltac:(cbn in Hl; lia) ltac:(auto) ltac:(intros; apply H; right; auto)). specialize (H p (or_introl eq_refl)). nra. }
  intros ws Hl Hp Hs H. specialize (K ps ws Hl Hp H). rewrite Hs in K. lra.
Qed.

(** ** Schedules *)
Lemma linear_range a b L s : (0 < L)%nat -> Rmin a b <= linear_schedule a b L s <= Rmax a b.
Proof.
  intros HL. unfold linear_schedule. destruct (Nat.leb_spec L 0); [lia|].
  assert (HLp : 0 < INR L) by (apply lt_0_INR; auto). assert (Hm : 0 <= INR (Nat.min s L) / INR L <= 1).
  { split; [apply Rmult_le_pos; [apply pos_INR|left; apply Rinv_0_lt_compat; auto]|]. apply (Rmult_le_reg_r (INR L)); auto. unfold Rdiv. rewrite Rmult_assoc, Rinv_l by lra. rewrite Rmult_1_r, Rmult_1_l. apply le_INR. lia. }
  set (t := INR (Nat.min s L) / INR L) in *. unfold Rmin, Rmax. destruct (Rle_dec a b); nra.
Qed.
Lemma linear_start a b L : linear_schedule a b L 0 = a.
Proof. unfold linear_schedule. destruct (Nat.leb L 0); [reflexivity|]. cbn [Nat.min INR]. unfold Rdiv. rewrite Rmult_0_l. lra. Qed.
Lemma linear_end a b L s : (0 < L <= s)%nat -> linear_schedule a b L s = b.
Proof.
  intros H. unfold linear_schedule. destruct (Nat.leb_spec L 0); [lia|]. rewrite Nat.min_r by lia. assert (0 < INR L) by (apply lt_0_INR; lia).
  replace (INR L / INR L) with 1 by (field; lra). lra.
Qed.
Lemma linear_value a b L s : (0 < L)%nat -> (s <= L)%nat -> linear_schedule a b L s = a + (b - a) * (INR s / INR L).
Proof. intros HL Hs. unfold linear_schedule. destruct (Nat.leb_spec L 0); [lia|]. rewrite Nat.min_l by lia. ring. Qed.
Lemma int_of_le r n : 0 <= r -> r <= INR n -> (int_of r <= n)%nat.
Proof.
  intros H0 H. unfold int_of. destruct (archimed r) as [A1 A2]. apply Nat2Z.inj_le. rewrite Z2Nat.id.
  - apply le_IZR. rewrite minus_IZR, <- INR_IZR_INZ. lra.
  - assert (0 < up r)%Z by (apply lt_IZR; lra). lia.
Qed.
Section Lr.
Variables (lr frac : R) (total : nat).
Hypotheses (Hlr : 0 <= lr) (Hf : 0 <= frac <= 1).
Let w := warmup_steps frac total.
Lemma warmup_le : (w <= total)%nat.
Proof. unfold w, warmup_steps. pose proof (pos_INR total). apply int_of_le; nra. Qed.
Theorem updown_zero : (0 < w)%nat -> lr_updown lr frac total 0 = 0.
Proof. intros Hw. unfold lr_updown. fold w. unfold join2. destruct (Nat.ltb_spec 0 w); [|lia]. apply linear_start. Qed.
Theorem updown_peak : lr_updown lr frac total w = lr.
Proof. unfold lr_updown. fold w. unfold join2. destruct (Nat.ltb_spec w w); [lia|]. rewrite Nat.sub_diag. apply linear_start. Qed.
Theorem updown_warm s : (s < w)%nat -> lr_updown lr frac total s = lr * (INR s / INR w).
Proof. intros H. unfold lr_updown. fold w. unfold join2. destruct (Nat.ltb_spec s w); [|lia]. rewrite linear_value by lia. ring. Qed.
Theorem updown_bound s : 0 <= lr_updown lr frac total s <= lr.
Proof.
  unfold lr_updown. fold w. unfold join2. destruct (Nat.ltb_spec s w).
  - pose proof (linear_range 0 lr w s ltac:(lia)). unfold Rmin, Rmax in *. destruct (Rle_dec 0 lr); lra.
  - destruct (Nat.eq_dec (total - w) 0) as [E|E].
    + unfold linear_schedule. rewrite E. cbn. lra.
    + pose proof (linear_range lr (lr * (1 / 100)) (total - w) (s - w) ltac:(lia)). unfold Rmin, Rmax in *. destruct (Rle_dec lr (lr * (1 / 100))); lra.
Qed.
Theorem updown_final s : (w < total)%nat -> (total <= s)%nat -> lr_updown lr frac total s = lr / 100.
Proof. intros H1 H2. unfold lr_updown. fold w. unfold join2. destruct (Nat.ltb_spec s w); [lia|]. rewrite linear_end by lia. field. Qed.
Lemma exp_sched_value init final decay L s : (0 < L)%nat -> 0 < decay < 1 -> exp_schedule init final decay L s = Rmax (init * Rpower decay (INR s / INR L)) final.
Proof.
  intros HL Hd. unfold exp_schedule. destruct (Nat.leb_spec L 0); [lia|]. destruct (Req_EM_T decay 0); [lra|]. destruct (Rlt_dec decay 1); [|lra].
  destruct (Nat.leb_spec s 0); [|reflexivity]. assert (s = 0)%nat as -> by lia. cbn [INR]. unfold Rdiv. rewrite Rmult_0_l, Rpower_O by lra. rewrite Rmult_1_r. reflexivity.
Qed.
Lemma Rpower_le1 d x : 0 < d < 1 -> 0 <= x -> 0 < Rpower d x <= 1.
Proof.
  intros Hd Hx. split; [apply exp_pos|]. unfold Rpower. rewrite <- exp_0. assert (ln d < 0) by (rewrite <- ln_1; apply ln_increasing; lra).
  destruct (Req_dec x 0) as [->|]; [rewrite Rmult_0_l; lra|]. left. apply exp_increasing. nra.
Qed.
Theorem upexp_zero : (0 < w)%nat -> lr_up_exp_down lr frac total 0 = 0.
Proof. intros Hw. unfold lr_up_exp_down. fold w. unfold join2. destruct (Nat.ltb_spec 0 w); [|lia]. apply linear_start. Qed.
Lemma upexp_value s : (w <= s)%nat -> lr_up_exp_down lr frac total s = Rmax (lr * Rpower (9 / 10) (INR (s - w) / INR 20000)) (1 / 1000000).
Proof.
  intros H. unfold lr_up_exp_down. fold w. unfold join2. destruct (Nat.ltb_spec s w); [lia|]. apply exp_sched_value; [apply Nat.lt_0_succ|lra].
Qed.
Theorem upexp_peak : 1 / 1000000 <= lr -> lr_up_exp_down lr frac total w = lr.
Proof.
  intros H. rewrite upexp_value by lia. rewrite Nat.sub_diag. unfold Rdiv at 2. cbn [INR]. rewrite Rmult_0_l, Rpower_O by lra. rewrite Rmult_1_r. apply Rmax_left. lra.
Qed.
Theorem upexp_bound s : 1 / 1000000 <= lr -> 0 <= lr_up_exp_down lr frac total s <= lr.
Proof.
  intros H. destruct (Nat.lt_ge_cases s w) as [L|L].
  - unfold lr_up_exp_down. fold w. unfold join2. destruct (Nat.ltb_spec s w); [|lia]. pose proof (linear_range 0 lr w s ltac:(lia)). unfold Rmin, Rmax in *. destruct (Rle_dec 0 lr); lra.
  - rewrite upexp_value by auto. assert (Hx : 0 <= INR (s - w) / INR 20000) by (apply Rmult_le_pos; [apply pos_INR|left; apply Rinv_0_lt_compat, lt_0_INR, Nat.lt_0_succ]).
    pose proof (Rpower_le1 (9 / 10) _ ltac:(lra) Hx). split; [eapply Rle_trans; [|apply Rmax_r]; lra|]. apply Rmax_lub; nra.
Qed.
Lemma upexp_above s : lr < 1 / 1000000 -> (w <= s)%nat -> lr < lr_up_exp_down lr frac total s.
Proof. intros H Hs. rewrite upexp_value by auto. eapply Rlt_le_trans; [exact H|apply Rmax_r]. Qed.
End Lr.

(** ** The loop *)
Lemma loop_steps_spec i t a : loop_steps i t a = seq (i + 1) (Nat.min a (t - i)).
Proof.
  unfold loop_steps, range. replace (t + 1 - (i + 1))%nat with (t - i)%nat by lia. generalize (i + 1)%nat (t - i)%nat. clear. revert a.
  induction a as [|a IH]; intros s n; [reflexivity|]. destruct n as [|n]; [reflexivity|]. cbn [seq firstn Nat.min]. rewrite IH. reflexivity.
Qed.
Lemma final_step_spec i t a : final_step i t a = (i + Nat.min a (t - i))%nat.
Proof.
  unfold final_step. rewrite loop_steps_spec. generalize (Nat.min a (t - i)) (i + 1)%nat. intros n s. revert s i. induction n as [|n IH]; intros s i; cbn [seq fold_left]; [lia|]. rewrite IH. lia.
Qed.
Lemma combine_self s n : combine (seq s n) (map (fun i => (s - 1 + S i)%nat) (seq 0 n)) = map (fun k => (k, (s - 1 + S (k - s))%nat)) (seq s n).
Proof.
  assert (K : forall n s o, combine (seq (s + o) n) (map (fun i => (s - 1 + S i)%nat) (seq o n)) = map (fun k => (k, (s - 1 + S (k - s))%nat)) (seq (s + o) n)).
  { clear. induction n as [|n IH]; intros s o; [reflexivity|]. cbn [seq map combine]. f_equal; [f_equal; f_equal; lia|]. rewrite <- Nat.add_succ_r. apply IH. }
  specialize (K n s 0%nat). rewrite Nat.add_0_r in K. exact K.
Qed.
Theorem checkpoints_spec i t a e : checkpoints i t a e = map (fun s => (s, s)) (filter (fun s => Nat.eqb (s mod e) 0) (seq (i + 1) (Nat.min a (t - i)))).
Proof.
  unfold checkpoints. rewrite loop_steps_spec, seq_length. pose proof (combine_self (i + 1) (Nat.min a (t - i))) as K.
  rewrite (map_ext (fun k => (i + S k)%nat) (fun k => (i + 1 - 1 + S k)%nat)) by (intros; lia). rewrite K.
  assert (G : forall l, (forall k, In k l -> (i + 1 <= k)%nat) -> filter (fun sc : nat * nat => Nat.eqb (fst sc mod e) 0) (map (fun k => (k, (i + 1 - 1 + S (k - (i + 1)))%nat)) l) = map (fun s => (s, s)) (filter (fun s => Nat.eqb (s mod e) 0) l)).
  { clear. induction l as [|k l IH]; intros H; [reflexivity|]. cbn [map filter fst]. rewrite IH by (intros; apply H; right; auto). specialize (H k (or_introl eq_refl)).
    destruct (Nat.eqb (k mod e) 0); [|reflexivity]. cbn [map]. f_equal. f_equal. lia. }
  apply G. intros k Hk. apply in_seq in Hk. lia.
Qed.
Theorem data_mean_range px : 1 / 100 <= data_mean px <= 99 / 100.
Proof. unfold data_mean, clip, Rmin, Rmax. destruct (Rle_dec (rsum px (fun v => v) / INR (length px) / 255) (1 / 100)); destruct Rle_dec; lra. Qed.
Theorem data_mean_inside px : let m := rsum px (fun v => v) / INR (length px) / 255 in 1 / 100 <= m <= 99 / 100 -> data_mean px = m.
Proof. intros m H. unfold data_mean, clip. fold m. rewrite Rmax_left by lra. apply Rmin_left. lra. Qed.
Lemma int_of_INR n : int_of (INR n) = n.
Proof.
  destruct (int_of_spec (INR n) (pos_INR n)) as [A B]. apply INR_le in A. rewrite <- S_INR in B. apply INR_lt in B. lia.
Qed.
