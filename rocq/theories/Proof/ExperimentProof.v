(** Proofs about the experiment loops. *)
From Coq Require Import String Reals List Arith ZArith Lra Lia.
From Verif.Base Require Import RSum Cube Dist.
From Verif.Spec Require Import Chain.
From Verif.Model Require Import Experiment.
Import ListNotations.
Local Open Scope R_scope.

(** ** Step accounting *)
Lemma int_of_spec r : 0 <= r -> INR (int_of r) <= r < INR (int_of r) + 1.
Proof.
  intros Hr. unfold int_of. destruct (archimed r) as [H1 H2].
  assert (Hup : (0 < up r)%Z) by (apply lt_IZR; lra).
  rewrite INR_IZR_INZ, Z2Nat.id by lia. rewrite minus_IZR. lra.
Qed.
Lemma int_of_le L r : 0 <= r -> r <= 1 -> (int_of (INR L * r) <= L)%nat.
Proof.
  intros H0 H1. assert (Hp : 0 <= INR L * r) by (apply Rmult_le_pos; [apply pos_INR|auto]).
  destruct (int_of_spec _ Hp) as [Ha _]. apply INR_le. eapply Rle_trans; [exact Ha|]. pose proof (pos_INR L). nra.
Qed.

Lemma range_split a b c : (a <= b)%nat -> (b <= c)%nat -> (range a b ++ range b c)%list = range a c.
Proof. intros H1 H2. unfold range. replace (c - a)%nat with ((b - a) + (c - b))%nat by lia. rewrite seq_app. replace (a + (b - a))%nat with b by lia. reflexivity. Qed.

Theorem steps_all L r : 0 <= r <= 1 -> map fst (sampling_steps L r) = seq 1 L.
Proof.
  intros [H0 H1]. unfold sampling_steps, burn_in_length. rewrite map_app, !map_map. cbn [fst]. rewrite !map_id.
  rewrite range_split by (pose proof (int_of_le L r H0 H1); lia). unfold range. f_equal. lia.
Qed.
Theorem steps_flag L r s k : In (s, k) (sampling_steps L r) -> k = Nat.ltb (int_of (INR L * r)) s.
Proof.
  unfold sampling_steps, burn_in_length, range. rewrite in_app_iff, !in_map_iff.
  intros [(t & E & Ht)|(t & E & Ht)]; injection E as <- <-; apply in_seq in Ht; symmetry; [apply Nat.ltb_ge|apply Nat.ltb_lt]; lia.
Qed.
Theorem steps_kept L r : 0 <= r <= 1 -> length (filter snd (sampling_steps L r)) = (L - int_of (INR L * r))%nat.
Proof.
  intros H. unfold sampling_steps. rewrite filter_app, app_length.
  assert (F0 : forall l : list nat, filter snd (map (fun s => (s, false)) l) = []) by (induction l; cbn; auto).
  assert (F1 : forall l : list nat, filter snd (map (fun s => (s, true)) l) = map (fun s => (s, true)) l) by (induction l; cbn; f_equal; auto).
  rewrite F0, F1, map_length. unfold range. rewrite seq_length. unfold burn_in_length. cbn [length]. lia.
Qed.
Theorem steps_overrun : exists L r, 1 < r /\ length (sampling_steps L r) <> L.
Proof.
  exists 1%nat, 3. split; [lra|]. unfold sampling_steps. rewrite app_length, !map_length. unfold range. rewrite !seq_length. unfold burn_in_length.
  assert (int_of (INR 1 * 3) = 3)%nat.
  { destruct (int_of_spec (INR 1 * 3)) as [Ha Hb]; [cbn; lra|]. set (k := int_of (INR 1 * 3)) in *. cbn [INR] in Ha, Hb.
    assert (INR k <= 3) as Ha' by lra. assert (2 < INR k) as Hb' by lra.
    change 3 with (INR 3) in Ha' at 1 || idtac. replace 3 with (INR 3) in Ha' by (cbn; lra). replace 2 with (INR 2) in Hb' by (cbn; lra).
    apply INR_le in Ha'. apply INR_lt in Hb'. lia. }
  rewrite H. cbn. lia.
Qed.

(** The trajectory the loop follows, step by step, and what the ESS chain contains. *)
Fixpoint orbit {X} (step : nat -> X -> X) (x : X) (n : nat) : X :=
  match n with O => x | S n' => step n (orbit step x n') end.
Lemma sampling_run_spec {X Y} L r (step : nat -> X -> X) (mapped : X -> Y) x0 : 0 <= r <= 1 ->
  sampling_run L r step mapped x0 = (orbit step x0 L, map (fun s => mapped (orbit step x0 s)) (seq (S (int_of (INR L * r))) (L - int_of (INR L * r)))).
Proof.
  intros Hr. unfold sampling_run, sampling_steps, burn_in_length, range. set (b := int_of (INR L * r)).
  assert (Hb : (b <= L)%nat) by (apply int_of_le; tauto). rewrite fold_left_app.
  assert (H1 : forall n, fold_left (fun (acc : X * list Y) (s : nat * bool) => (step (fst s) (fst acc), if snd s then snd acc ++ [mapped (step (fst s) (fst acc))] else snd acc))
      (map (fun s => (s, false)) (seq 1 n)) (x0, []) = (orbit step x0 n, [])).
  { induction n as [|n IH]; [reflexivity|]. rewrite seq_S, map_app, fold_left_app, IH. reflexivity. }
  replace (b + 1 - 1)%nat with b by lia. rewrite H1.
  assert (H2 : forall n, fold_left (fun (acc : X * list Y) (s : nat * bool) => (step (fst s) (fst acc), if snd s then snd acc ++ [mapped (step (fst s) (fst acc))] else snd acc))
      (map (fun s => (s, true)) (seq (b + 1) n)) (orbit step x0 b, []) = (orbit step x0 (b + n), map (fun s => mapped (orbit step x0 s)) (seq (S b) n))).
  { induction n as [|n IH]; [rewrite Nat.add_0_r; reflexivity|]. rewrite seq_S, map_app, fold_left_app, IH. cbn [map fold_left fst snd].
    replace (b + S n)%nat with (S (b + n)) by lia. replace (b + 1 + n)%nat with (S (b + n)) by lia. cbn [orbit]. rewrite seq_S, map_app. cbn [map].
    replace (S b + n)%nat with (S (b + n)) by lia. reflexivity. }
  rewrite H2. replace (b + (1 + L - (b + 1)))%nat with L by lia. replace (1 + L - (b + 1))%nat with (L - b)%nat by lia. reflexivity.
Qed.

Lemma multiples_count k n : (0 < k)%nat -> length (filter (fun s => Nat.eqb (s mod k) 0) (seq 1 n)) = (n / k)%nat.
Proof.
  intros Hk. induction n as [|n IH]; [rewrite Nat.div_0_l by lia; reflexivity|].
  rewrite seq_S, filter_app, app_length, IH. cbn [filter]. rewrite Nat.add_1_l.
  pose proof (Nat.div_mod (S n) k ltac:(lia)) as H1. pose proof (Nat.div_mod n k ltac:(lia)) as H2.
  pose proof (Nat.mod_upper_bound n k ltac:(lia)). pose proof (Nat.mod_upper_bound (S n) k ltac:(lia)).
  destruct (Nat.eqb_spec (S n mod k) 0) as [E|E]; cbn [length]; nia.
Qed.
Theorem saved_count L k r : 0 <= r <= 1 -> (0 < k)%nat -> length (saved_steps L k r) = (L / k)%nat.
Proof. intros Hr Hk. unfold saved_steps. rewrite steps_all by auto. apply multiples_count; auto. Qed.

(** ** Metrics *)
Theorem per_step_wrong : exists ess L r, 0 < r < 1 /\ 0 < ess /\ ess_per_step ess L r <> ess / INR (length (filter snd (sampling_steps L r))).
Proof.
  exists 1, 4%nat, (/ 4). split; [lra|]. split; [lra|]. rewrite steps_kept by lra.
  assert (int_of (INR 4 * / 4) = 1)%nat as ->.
  { destruct (int_of_spec (INR 4 * / 4)) as [Ha Hb]; [cbn; lra|]. set (k := int_of (INR 4 * / 4)) in *. cbn [INR] in Ha, Hb.
    assert (INR k <= INR 1) as Ha' by (cbn; lra). assert (INR 0 < INR k) as Hb' by (cbn; lra). apply INR_le in Ha'. apply INR_lt in Hb'. lia. }
  unfold ess_per_step. cbn. lra.
Qed.
Theorem per_step_half ess n : (0 < n)%nat -> ess_per_step ess (2 * n) (/ 2) = ess / INR (length (filter snd (sampling_steps (2 * n) (/ 2)))).
Proof.
  intros Hn. rewrite steps_kept by lra.
  assert (E : INR (2 * n) * / 2 = INR n) by (rewrite mult_INR; cbn [INR]; lra).
  assert (int_of (INR (2 * n) * / 2) = n) as ->.
  { rewrite E. destruct (int_of_spec (INR n) (pos_INR n)) as [Ha Hb]. apply INR_le in Ha. rewrite <- S_INR in Hb. apply INR_lt in Hb. lia. }
  unfold ess_per_step. rewrite E. f_equal. f_equal. lia.
Qed.
(** The exact condition. *)
Theorem per_step_iff ess L r : 0 <= r <= 1 -> 0 < INR L * r -> ess <> 0 ->
  (int_of (INR L * r) < L)%nat ->
  (ess_per_step ess L r = ess / INR (length (filter snd (sampling_steps L r))) <-> INR L * r = INR L - INR (int_of (INR L * r))).
Proof.
  intros Hr Hp He Hlt. rewrite steps_kept by auto. unfold ess_per_step. rewrite minus_INR by lia.
  assert (Hd : 0 < INR L - INR (int_of (INR L * r))) by (apply lt_INR in Hlt; lra).
  set (a := INR L * r) in *. set (b := INR L - INR (int_of a)) in *. split; intros H.
  - assert (/ a = / b) by (unfold Rdiv in H; apply Rmult_eq_reg_l in H; auto). rewrite <- (Rinv_inv a), <- (Rinv_inv b), H0. reflexivity.
  - rewrite H. reflexivity.
Qed.

(** ** Hops *)
Definition changes (x y : list Z) : nat := length (filter (fun ab => negb (Z.eqb (fst ab) (snd ab))) (combine x y)).
Definition binary_row (x : list Z) : Prop := forall a, In a x -> a = 0%Z \/ a = 1%Z.
Lemma row_hop_binary x y : binary_row x -> binary_row y ->
  rsum (combine x y) (fun ab => Rabs (IZR (fst ab) - IZR (snd ab))) = INR (changes x y).
Proof.
  unfold changes. revert y. induction x as [|a x IH]; intros [|b y] Hx Hy; try reflexivity. cbn [combine rsum filter fst snd].
  rewrite IH; [|intros c Hc; apply Hx; right; exact Hc|intros c Hc; apply Hy; right; exact Hc].
  destruct (Hx a (or_introl eq_refl)) as [-> | ->]; destruct (Hy b (or_introl eq_refl)) as [-> | ->]; cbn [Z.eqb negb length Pos.eqb].
  - rewrite Rminus_0_r, Rabs_R0. ring.
  - rewrite S_INR. replace (0 - 1) with (- (1)) by ring. rewrite Rabs_Ropp, Rabs_R1. ring.
  - rewrite S_INR, Rminus_0_r, Rabs_R1. ring.
  - replace (1 - 1) with 0 by ring. rewrite Rabs_R0. ring.
Qed.
Theorem hop_binary B x y : (forall r, In r x -> binary_row r) -> (forall r, In r y -> binary_row r) ->
  get_hop B 1 x y = INR (list_sum (map (fun rr => changes (fst rr) (snd rr)) (combine x y))) / INR B.
Proof.
  intros Hx Hy. unfold get_hop. cbn [INR]. unfold Rdiv at 1. rewrite Rinv_1, Rmult_1_r. f_equal.
  assert (H : forall l, (forall rr, In rr l -> binary_row (fst rr) /\ binary_row (snd rr)) ->
    rsum l (fun rr => rsum (combine (fst rr) (snd rr)) (fun ab => Rabs (IZR (fst ab) - IZR (snd ab)))) = INR (list_sum (map (fun rr => changes (fst rr) (snd rr)) l))).
  { induction l as [|rr l IH]; intros H; [reflexivity|]. cbn [rsum map list_sum fold_right]. rewrite plus_INR.
    rewrite IH by (intros; apply H; right; auto). destruct (H rr (or_introl eq_refl)). rewrite row_hop_binary by auto. reflexivity. }
  apply H. intros [a b] Hin. split; cbn [fst snd]; [apply Hx; eapply in_combine_l|apply Hy; eapply in_combine_r]; exact Hin.
Qed.
Theorem hop_categories_wrong : exists x y, get_hop 1 1 x y <> INR (list_sum (map (fun rr => changes (fst rr) (snd rr)) (combine x y))) / INR 1.
Proof.
  exists [[0%Z]], [[2%Z]]. unfold get_hop, changes. cbn. rewrite !Rplus_0_r. replace (0 - 2) with (- (2)) by ring. rewrite Rabs_Ropp, Rabs_right by lra. lra.
Qed.
Lemma rowdist_nonneg (l : list (Z * Z)) : 0 <= rsum l (fun ab => Rabs (IZR (fst ab) - IZR (snd ab))).
Proof. apply rsum_nonneg. intros; apply Rabs_pos. Qed.
Lemma rowdist_zero x : forall y, length x = length y -> (rsum (combine x y) (fun ab => Rabs (IZR (fst ab) - IZR (snd ab))) = 0 <-> x = y).
Proof.
  induction x as [|a x IH]; intros [|b y] Hl; try discriminate; [cbn; tauto|]. injection Hl as Hl. cbn [combine rsum fst snd]. split; intros H.
  - pose proof (Rabs_pos (IZR a - IZR b)). pose proof (rowdist_nonneg (combine x y)).
    assert (Rabs (IZR a - IZR b) = 0) as Ha by lra. f_equal.
    + destruct (Req_dec (IZR a - IZR b) 0) as [E|E]; [apply eq_IZR; lra|]. apply Rabs_no_R0 in E. lra.
    + apply (IH y Hl). lra.
  - injection H as -> ->. rewrite Rminus_diag_eq, Rabs_R0 by auto. rewrite (proj2 (IH y Hl) eq_refl). ring.
Qed.
Lemma rowdist_triangle x : forall y z, length x = length y -> length y = length z ->
  rsum (combine x z) (fun ab => Rabs (IZR (fst ab) - IZR (snd ab)))
  <= rsum (combine x y) (fun ab => Rabs (IZR (fst ab) - IZR (snd ab))) + rsum (combine y z) (fun ab => Rabs (IZR (fst ab) - IZR (snd ab))).
Proof.
  induction x as [|a x IH]; intros [|b y] [|c z] H1 H2; try discriminate; [cbn; lra|]. injection H1 as H1. injection H2 as H2.
  cbn [combine rsum fst snd]. specialize (IH y z H1 H2). pose proof (Rabs_triang (IZR a - IZR b) (IZR b - IZR c)) as HT.
  replace (IZR a - IZR b + (IZR b - IZR c)) with (IZR a - IZR c) in HT by ring. lra.
Qed.
Theorem hop_zero B M x : (0 < B)%nat -> (0 < M)%nat -> forall y, Forall2 (fun r s => length r = length s) x y -> (get_hop B M x y = 0 <-> x = y).
Proof.
  intros HB HM y HF.
  assert (H : rsum (combine x y) (fun rr => rsum (combine (fst rr) (snd rr)) (fun ab => Rabs (IZR (fst ab) - IZR (snd ab)))) = 0 <-> x = y).
  { induction HF as [|r s x y Hrs HF IH]; [cbn; tauto|]. cbn [combine rsum fst snd].
    pose proof (rowdist_nonneg (combine r s)). assert (0 <= rsum (combine x y) (fun rr => rsum (combine (fst rr) (snd rr)) (fun ab => Rabs (IZR (fst ab) - IZR (snd ab))))) by (apply rsum_nonneg; intros; apply rowdist_nonneg).
    split; intros E.
    - f_equal; [apply rowdist_zero; auto; lra|apply IH; lra].
    - injection E as -> ->. rewrite (proj2 (rowdist_zero s s eq_refl) eq_refl), (proj2 IH eq_refl). ring. }
  rewrite <- H. unfold get_hop. apply lt_INR in HB, HM. cbn [INR] in HB, HM. split; intros E.
  - apply Rmult_integral in E. destruct E as [E|E]; [|apply Rinv_0_lt_compat in HM; lra]. apply Rmult_integral in E.
    destruct E as [E|E]; [auto|apply Rinv_0_lt_compat in HB; lra].
  - rewrite E. unfold Rdiv. ring.
Qed.
Theorem hop_triangle B M x : forall y z, Forall2 (fun r s => length r = length s) x y -> Forall2 (fun r s => length r = length s) y z ->
  get_hop B M x z <= get_hop B M x y + get_hop B M y z.
Proof.
  intros y z H1 H2. unfold get_hop, Rdiv. rewrite <- !Rmult_plus_distr_r.
  assert (Hi : forall n, 0 <= / INR n).
  { intros [|n]; [cbn; rewrite RIneq.Rinv_0; lra|]. left. apply Rinv_0_lt_compat, lt_0_INR. lia. }
  apply Rmult_le_compat_r; [apply Hi|]. apply Rmult_le_compat_r; [apply Hi|].
  revert z H2. induction H1 as [|r s x y Hrs H1 IH]; intros z H2; inversion H2; subst; cbn [combine rsum fst snd]; [lra|].
  match goal with H : length s = length ?t |- _ => pose proof (rowdist_triangle r s t Hrs H) end.
  match goal with H : Forall2 _ y ?zz |- _ => specialize (IH zz H) end. lra.
Qed.

(** ** Best so far *)
Lemma lmax_ub d l v : In v l -> v <= lmax d l.
Proof.
  induction l as [|a l IH]; intros H; [destruct H|]. destruct l as [|b l]; [destruct H as [<-|[]]; cbn; lra|].
  change (lmax d (a :: b :: l)) with (Rmax a (lmax d (b :: l))). destruct H as [<-|H]; [apply Rmax_l|]. eapply Rle_trans; [apply IH; auto|apply Rmax_r].
Qed.
Lemma lmax_in d l : l <> [] -> In (lmax d l) l.
Proof.
  induction l as [|a l IH]; intros H; [congruence|]. destruct l as [|b l]; [left; auto|].
  change (lmax d (a :: b :: l)) with (Rmax a (lmax d (b :: l))). unfold Rmax. destruct (Rle_dec a (lmax d (b :: l))); [right; apply IH; discriminate|left; auto].
Qed.
Lemma argmax_from_spec l : forall pre k best besti, length pre = k -> nth_error pre besti = Some best -> (forall v, In v pre -> v <= best) ->
  exists m, nth_error (pre ++ l) (argmax_from k best besti l) = Some m /\ forall v, In v (pre ++ l) -> v <= m.
Proof.
  induction l as [|a l IH]; intros pre k best besti Hk Hb Hm; cbn [argmax_from].
  - exists best. rewrite app_nil_r. auto.
  - assert (Hpre : (pre ++ a :: l = (pre ++ [a]) ++ l)%list) by (rewrite <- app_assoc; reflexivity).
    destruct (Rlt_dec best a).
    + rewrite Hpre. apply IH.
      * rewrite app_length. cbn. lia.
      * rewrite nth_error_app2 by lia. rewrite Hk, Nat.sub_diag. reflexivity.
      * intros v Hv. apply in_app_or in Hv. destruct Hv as [Hv|[<-|[]]]; [apply Hm in Hv; lra|lra].
    + rewrite Hpre. apply IH.
      * rewrite app_length. cbn. lia.
      * rewrite nth_error_app1; auto. apply nth_error_Some. congruence.
      * intros v Hv. apply in_app_or in Hv. destruct Hv as [Hv|[<-|[]]]; [auto|lra].
Qed.
Lemma argmax_spec d l : l <> [] -> nth_error l (argmax l) = Some (lmax d l).
Proof.
  intros H. destruct l as [|a l]; [congruence|]. unfold argmax.
  destruct (argmax_from_spec l [a] 1 a 0 eq_refl eq_refl) as (m & H1 & H2); [intros v [<-|[]]; lra|].
  cbn [app] in H1, H2. rewrite H1. f_equal. apply Rle_antisym.
  - apply lmax_ub. eapply nth_error_In; eauto.
  - apply H2. apply lmax_in. auto.
Qed.

Section Book.
Variable X : Type.
Variables (ref : R) (zeros : X).
Hypothesis Href : 0 < ref.
(** A step with as many samples as evaluations, at least one. *)
Definition wf_step (s : list R * list X) : Prop := fst s <> [] /\ length (fst s) = length (snd s).

Definition attained (ls : list (list R * list X)) (st : R * X) : Prop :=
  exists s k v, In s ls /\ nth_error (fst s) k = Some v /\ nth_error (snd s) k = Some (snd st) /\ fst st = v / ref.

Lemma co_fold_spec ls : forall st, (forall s, In s ls -> wf_step s) ->
  let st' := fold_left (co_update ref zeros) ls st in
  fst st <= fst st' /\ (forall s v, In s ls -> In v (fst s) -> v / ref <= fst st') /\ (st' = st \/ attained ls st').
Proof.
  induction ls as [|s ls IH]; intros st Hwf; cbn [fold_left].
  - split; [lra|]. split; [intros s v []|]. left; auto.
  - destruct (Hwf s (or_introl eq_refl)) as [Hne Hlen].
    destruct (IH (co_update ref zeros st s)) as (H1 & H2 & H3); [intros; apply Hwf; right; auto|].
    assert (Hge : fst st <= fst (co_update ref zeros st s)) by (unfold co_update; cbn [fst]; apply Rmax_r).
    assert (Hgs : forall v, In v (fst s) -> v / ref <= fst (co_update ref zeros st s)).
    { intros v Hv. unfold co_update; cbn [fst]. eapply Rle_trans; [|apply Rmax_l]. unfold Rdiv. apply Rmult_le_compat_r; [left; apply Rinv_0_lt_compat; auto|].
      apply lmax_ub; auto. }
    split; [lra|]. split.
    + intros s' v [<-|Hs'] Hv; [eapply Rle_trans; [apply Hgs; auto|auto]|eapply H2; eauto].
    + destruct H3 as [H3|(s' & k & v & Hin & K)].
      * rewrite H3. unfold co_update. destruct (Rlt_dec (fst st) (lmax 0 (fst s) / ref)) as [Hlt|Hnlt].
        -- right. exists s, (argmax (fst s)), (lmax 0 (fst s)). split; [left; auto|]. split; [apply argmax_spec; auto|]. cbn [fst snd]. split.
           ++ apply nth_error_nth'. rewrite <- Hlen. apply nth_error_Some. rewrite (argmax_spec 0) by auto. discriminate.
           ++ apply Rmax_left. lra.
        -- left. destruct st as [b x]. cbn [fst snd] in *. rewrite Rmax_right by lra. reflexivity.
      * right. exists s', k, v. split; [right; auto|]. exact K.
Qed.

Theorem co_run_best log_every steps : (forall s, In s (co_logged log_every steps) -> wf_step s) ->
  let st := co_run ref zeros log_every steps in
  (forall s v, In s (co_logged log_every steps) -> In v (fst s) -> v / ref <= fst st)
  /\ (st = co_init zeros \/ attained (co_logged log_every steps) st).
Proof. intros H st. destruct (co_fold_spec _ (co_init zeros) H) as (_ & H2 & H3). split; auto. Qed.

Theorem co_run_attained log_every steps s v : (forall s, In s (co_logged log_every steps) -> wf_step s) ->
  In s (co_logged log_every steps) -> In v (fst s) -> - IZR 1000000000 < v / ref -> attained (co_logged log_every steps) (co_run ref zeros log_every steps).
Proof.
  intros H Hs Hv Hgt. destruct (co_run_best log_every steps H) as [H1 [H2|H2]]; auto. exfalso.
  specialize (H1 s v Hs Hv). rewrite H2 in H1. cbn [co_init fst] in H1. lra.
Qed.

Lemma co_trace_ge ls : forall st, Forall (fun b => fst st <= b) (co_trace ref zeros st ls).
Proof.
  induction ls as [|s ls IH]; intros st; cbn [co_trace]; constructor.
  - unfold co_update; cbn [fst]. apply Rmax_r.
  - eapply Forall_impl; [|apply IH]. cbv beta. intros b Hb. eapply Rle_trans; [|exact Hb]. unfold co_update; cbn [fst]. apply Rmax_r.
Qed.
Theorem co_trace_monotone ls st : forall i j bi bj, (i <= j)%nat ->
  nth_error (co_trace ref zeros st ls) i = Some bi -> nth_error (co_trace ref zeros st ls) j = Some bj -> bi <= bj.
Proof.
  revert st. induction ls as [|s ls IH]; intros st i j bi bj Hij Hi Hj; cbn [co_trace] in *; [destruct i; discriminate|].
  destruct i as [|i].
  - cbn in Hi. injection Hi as <-. destruct j as [|j]; [cbn in Hj; injection Hj as <-; lra|]. cbn [nth_error] in Hj.
    pose proof (co_trace_ge ls (co_update ref zeros st s)) as HF. rewrite Forall_forall in HF. apply HF. eapply nth_error_In; eauto.
  - destruct j as [|j]; [lia|]. cbn [nth_error] in Hi, Hj. eapply IH; [|exact Hi|exact Hj]. lia.
Qed.
Lemma co_trace_last ls : forall st, last (co_trace ref zeros st ls) (fst st) = fst (fold_left (co_update ref zeros) ls st).
Proof.
  induction ls as [|s ls IH]; intros st; [reflexivity|]. cbn [co_trace fold_left]. rewrite <- IH.
  destruct (co_trace ref zeros (co_update ref zeros st s) ls) as [|b l] eqn:E; [reflexivity|].
  change (last (fst (co_update ref zeros st s) :: b :: l) (fst st)) with (last (b :: l) (fst st)).
  clear. revert b. induction l as [|c l IH]; intros b; [reflexivity|]. change (last (b :: c :: l) (fst st)) with (last (c :: l) (fst st)).
  change (last (b :: c :: l) (fst (co_update ref zeros st s))) with (last (c :: l) (fst (co_update ref zeros st s))). apply IH.
Qed.
End Book.

(** ** Saving *)
Lemma save_last {A} (d : dir A) bs b : save_batches d (bs ++ [b]) "results"%string = Some b.
Proof. unfold save_batches. rewrite fold_left_app. cbn [fold_left]. unfold dump. reflexivity. Qed.
Theorem save_loses : exists (batches : list (list nat)) i, (exists b, In b batches /\ In i b) /\
  forall saved, save_batches (fun _ => None) batches "results"%string = Some saved -> ~ In i saved.
Proof.
  exists [[0%nat; 1%nat]; [2%nat; 3%nat]], 0%nat. split; [exists [0%nat; 1%nat]; cbn; auto|].
  intros saved H. injection H as <-. cbn. intuition discriminate.
Qed.

(** ** Temperature schedules *)
Lemma frac_range step L : (0 < L)%nat -> 0 <= INR (Nat.min step L) / INR L <= 1.
Proof.
  intros H. apply lt_INR in H. cbn [INR] in H. assert (Hm : INR (Nat.min step L) <= INR L) by (apply le_INR; lia). pose proof (pos_INR (Nat.min step L)).
  split; [apply Rmult_le_pos; [auto|left; apply Rinv_0_lt_compat; auto]|]. apply (Rmult_le_reg_r (INR L)); auto. unfold Rdiv. rewrite Rmult_assoc, Rinv_l by lra. lra.
Qed.
Theorem linear_start init final L : linear_schedule init final L 0 = init.
Proof. unfold linear_schedule. destruct L; cbn [Nat.leb]; [reflexivity|]. cbn [Nat.min]. cbn [INR]. unfold Rdiv. ring. Qed.
Theorem linear_end init final L step : (0 < L)%nat -> (L <= step)%nat -> linear_schedule init final L step = final.
Proof.
  intros H Hs. unfold linear_schedule. destruct L; [lia|]. cbn [Nat.leb]. rewrite Nat.min_r by auto. unfold Rdiv. rewrite Rinv_r by (apply not_0_INR; lia). ring.
Qed.
Theorem linear_range init final L step : Rmin init final <= linear_schedule init final L step <= Rmax init final.
Proof.
  unfold linear_schedule. destruct (Nat.leb_spec L 0); [split; [apply Rmin_l|apply Rmax_l]|].
  destruct (frac_range step L H). set (q := INR (Nat.min step L) / INR L) in *. unfold Rmin, Rmax. destruct (Rle_dec init final); nra.
Qed.
Theorem linear_monotone init final L s t : (s <= t)%nat -> Rabs (linear_schedule init final L t - final) <= Rabs (linear_schedule init final L s - final).
Proof.
  intros Hst. unfold linear_schedule. destruct (Nat.leb_spec L 0); [lra|].
  replace ((init - final) * (1 - INR (Nat.min t L) / INR L) + final - final) with ((init - final) * (1 - INR (Nat.min t L) / INR L)) by ring.
  replace ((init - final) * (1 - INR (Nat.min s L) / INR L) + final - final) with ((init - final) * (1 - INR (Nat.min s L) / INR L)) by ring.
  rewrite !Rabs_mult. apply Rmult_le_compat_l; [apply Rabs_pos|]. destruct (frac_range s L H), (frac_range t L H).
  rewrite !Rabs_right by lra.
  assert (INR (Nat.min s L) / INR L <= INR (Nat.min t L) / INR L); [|lra].
  apply Rmult_le_compat_r; [left; apply Rinv_0_lt_compat, lt_0_INR; auto|]. apply le_INR. lia.
Qed.

Lemma rpower_frac decay q : 0 < decay < 1 -> 0 <= q -> 0 < Rpower decay q <= 1.
Proof.
  intros Hd Hq. split; [apply exp_pos|]. unfold Rpower. rewrite <- exp_0. assert (ln decay < 0) by (rewrite <- ln_1; apply ln_increasing; lra).
  destruct Hq as [Hq|Hq]; [|subst; rewrite Rmult_0_l; lra]. left. apply exp_increasing. nra.
Qed.
Theorem exp_start init final decay L : 0 < decay < 1 -> final <= init -> exp_schedule init final decay L 0 = init.
Proof.
  intros Hd Hf. unfold exp_schedule. destruct (Nat.leb L 0); auto. destruct (Req_EM_T decay 0); auto. cbn [Nat.leb]. destruct (Rlt_dec decay 1); [|lra].
  apply Rmax_left; auto.
Qed.
Theorem exp_range init final decay L step : 0 < decay < 1 -> 0 < init -> final <= init -> final <= exp_schedule init final decay L step <= init.
Proof.
  intros Hd Hi Hf. unfold exp_schedule. destruct (Nat.leb_spec L 0); [lra|]. destruct (Req_EM_T decay 0); [lra|]. destruct (Rlt_dec decay 1); [|lra].
  split; [apply Rmax_r|]. apply Rmax_lub; auto. destruct (Nat.leb step 0); [lra|].
  assert (0 <= INR step / INR L) by (apply Rmult_le_pos; [apply pos_INR|left; apply Rinv_0_lt_compat, lt_0_INR; auto]).
  destruct (rpower_frac decay _ Hd H0). nra.
Qed.
Theorem exp_monotone init final decay L s t : 0 < decay < 1 -> 0 < init -> (s <= t)%nat -> exp_schedule init final decay L t <= exp_schedule init final decay L s.
Proof.
  intros Hd Hi Hst. unfold exp_schedule. destruct (Nat.leb_spec L 0) as [|HL]; [lra|]. destruct (Req_EM_T decay 0); [lra|]. destruct (Rlt_dec decay 1); [|lra].
  assert (Hln : ln decay < 0) by (rewrite <- ln_1; apply ln_increasing; lra).
  assert (HiL : 0 < / INR L) by (apply Rinv_0_lt_compat, lt_0_INR; auto).
  assert (Hdec : (if Nat.leb t 0 then init else init * Rpower decay (INR t / INR L)) <= (if Nat.leb s 0 then init else init * Rpower decay (INR s / INR L))).
  { destruct (Nat.leb_spec t 0); destruct (Nat.leb_spec s 0); try lia; try lra.
    - assert (0 <= INR t / INR L) by (apply Rmult_le_pos; [apply pos_INR|lra]). destruct (rpower_frac decay _ Hd H1). nra.
    - apply Rmult_le_compat_l; [lra|]. unfold Rpower. assert (Hle : INR s / INR L <= INR t / INR L) by (apply Rmult_le_compat_r; [lra|apply le_INR; auto]).
      destruct (Rle_lt_or_eq_dec _ _ Hle) as [Hlt|Heq]; [left; apply exp_increasing; nra|rewrite Heq; lra]. }
  apply Rmax_lub; [eapply Rle_trans; [exact Hdec|apply Rmax_l]|apply Rmax_r].
Qed.
Theorem exp_start_wrong : exists init final decay L, 0 < init /\ 0 < final /\ 0 < decay < 1 /\ (0 < L)%nat /\ exp_schedule init final decay L 0 <> init.
Proof.
  exists 1, 2, (/ 2), 1%nat. repeat split; try lra; try lia. unfold exp_schedule. cbn [Nat.leb]. destruct (Req_EM_T (/ 2) 0); [lra|].
  destruct (Rlt_dec (/ 2) 1); [|lra]. rewrite Rmax_right by lra. lra.
Qed.

(** ** Annealed importance sampling *)
Section AIS.
Variable A : Type.
Variable S : list A.
Variables (f : nat -> A -> R) (K : nat -> A -> dist A).

Lemma ais_run_shift n : forall t x c g, E (ais_run f K n t (x, c)) (fun s => exp (snd s) * g (fst s)) = exp c * E (ais_run f K n t (x, 0)) (fun s => exp (snd s) * g (fst s)).
Proof.
  induction n as [|n IH]; intros t x c g; cbn [ais_run].
  - rewrite !E_ret. cbn [fst snd]. rewrite exp_0. ring.
  - rewrite !E_bind. unfold ais_step. rewrite !E_dmap. cbn [fst snd]. rewrite <- E_scal. apply E_ext. intros x'.
    rewrite IH, (IH _ _ (0 + f (Datatypes.S t) x - f t x)). rewrite <- Rmult_assoc, <- exp_plus. f_equal. f_equal. ring.
Qed.

Theorem ais_weight n : forall t, (forall k, (t < k <= t + n)%nat -> invariant S (fun x => exp (f k x)) (K k)) -> forall g,
  rsum S (fun x => exp (f t x) * E (ais_run f K n t (x, 0)) (fun s => exp (snd s) * g (fst s))) = rsum S (fun x => exp (f (t + n)%nat x) * g x).
Proof.
  induction n as [|n IH]; intros t Hinv g.
  - rewrite Nat.add_0_r. apply rsum_ext. intros x _. cbn [ais_run]. rewrite E_ret. cbn [fst snd]. rewrite exp_0. ring.
  - replace (t + Datatypes.S n)%nat with (Datatypes.S t + n)%nat by lia. rewrite <- (IH (Datatypes.S t)) by (intros k Hk; apply Hinv; lia).
    rewrite <- (Hinv (Datatypes.S t) ltac:(lia)). apply rsum_ext. intros x _. cbn [ais_run]. rewrite E_bind. unfold ais_step. rewrite E_dmap. cbn [fst snd].
    rewrite (E_ext _ _ (fun a => exp (0 + f (Datatypes.S t) x - f t x) * E (ais_run f K n (Datatypes.S t) (a, 0)) (fun s => exp (snd s) * g (fst s)))) by (intros; apply ais_run_shift).
    rewrite E_scal, <- Rmult_assoc, <- exp_plus. f_equal. f_equal. ring.
Qed.

Theorem ais_unbiased n : (forall k, (0 < k <= n)%nat -> invariant S (fun x => exp (f k x)) (K k)) ->
  E (ais_chain (weighted S (fun x => exp (f 0%nat x) / rsum S (fun y => exp (f 0%nat y)))) f K n) (fun s => exp (snd s))
  = rsum S (fun x => exp (f n x)) / rsum S (fun x => exp (f 0%nat x)).
Proof.
  intros H. unfold ais_chain. rewrite E_bind, E_weighted.
  rewrite (rsum_ext _ _ (fun x => / rsum S (fun y => exp (f 0%nat y)) * (exp (f 0%nat x) * E (ais_run f K n 0 (x, 0)) (fun s => exp (snd s) * 1)))).
  - rewrite rsum_scal. rewrite (ais_weight n 0 (fun k Hk => H k Hk) (fun _ => 1)). cbn [Nat.add]. rewrite (rsum_ext _ (fun x => exp (f n x) * 1) (fun x => exp (f n x))) by (intros; ring). unfold Rdiv. ring.
  - intros x _. unfold Rdiv. rewrite (E_ext _ (fun s => exp (snd s)) (fun s => exp (snd s) * 1)) by (intros; ring). ring.
Qed.

(** If the chain never moves the weight telescopes. *)
Theorem ais_telescopes n x : forall t c, ais_run f (fun _ y => ret y) n t (x, c) = ret (x, c + f (t + n)%nat x - f t x) \/
  exists l, ais_run f (fun _ y => ret y) n t (x, c) = l /\ forall g, E l g = g (x, c + f (t + n)%nat x - f t x).
Proof.
  intros t c. right. eexists. split; [reflexivity|]. revert t c. induction n as [|n IH]; intros t c g; cbn [ais_run].
  - rewrite E_ret. f_equal. f_equal. rewrite Nat.add_0_r. ring.
  - rewrite E_bind. unfold ais_step. rewrite E_dmap. rewrite E_ret. cbn [fst snd]. rewrite IH. f_equal. f_equal. replace (Datatypes.S t + n)%nat with (t + Datatypes.S n)%nat by lia. ring.
Qed.
End AIS.

(** The estimator: mean of the weights over the batch. *)
Lemma logz_mean lw : lw <> [] -> exp (logz lw) = rsum lw exp / INR (length lw).
Proof.
  intros H. unfold logz. unfold Rminus. rewrite exp_plus, exp_Ropp, !exp_ln; [reflexivity| |].
  - apply lt_0_INR. destruct lw; [congruence|cbn; lia].
  - destruct lw as [|a lw]; [congruence|]. cbn [rsum]. pose proof (exp_pos a). assert (0 <= rsum lw exp) by (apply rsum_nonneg; intros; left; apply exp_pos). lra.
Qed.
Lemma E_indep_sum {A} (d : dist A) (h : A -> R) B : mass d = 1 -> E (indep (repeat d B)) (fun l => rsum l h) = INR B * E d h.
Proof.
  intros Hd.
  assert (Hm : forall n, mass (indep (repeat d n)) = 1).
  { induction n as [|n IH]; [apply mass_ret|]. cbn [repeat indep]. unfold mass. rewrite E_bind. rewrite (E_ext _ _ (fun _ => 1)); [exact Hd|].
    intros a. rewrite E_dmap. exact IH. }
  induction B as [|B IH]; [cbn [repeat indep]; rewrite E_ret; cbn [rsum INR]; ring|].
  cbn [repeat indep]. rewrite E_bind, S_INR.
  rewrite (E_ext _ _ (fun a => h a + INR B * E d h)).
  - rewrite E_plus, E_const, Hd. ring.
  - intros a. rewrite E_dmap. cbn [rsum]. rewrite E_plus, E_const, Hm, IH. ring.
Qed.
Theorem logz_unbiased {A} (d : dist (A * R)) B : (0 < B)%nat -> mass d = 1 ->
  E (indep (repeat d B)) (fun l => exp (logz (map snd l))) = E d (fun s => exp (snd s)).
Proof.
  intros HB Hd.
  assert (Hlen : forall n l w, In (l, w) (indep (repeat d n)) -> length l = n).
  { induction n as [|n IH]; intros l w Hin; cbn [repeat indep] in Hin.
    - destruct Hin as [E|[]]. injection E as <- <-. reflexivity.
    - unfold bind in Hin. apply in_flat_map in Hin. destruct Hin as (p & _ & Hin). apply in_map_iff in Hin. destruct Hin as ([l' w'] & E & Hin).
      unfold dmap in Hin. apply in_map_iff in Hin. destruct Hin as ([l'' w''] & E' & Hin). cbn [fst snd] in *. injection E' as <- <-. injection E as <- <-.
      cbn. f_equal. eapply IH; eauto. }
  rewrite (E_ext_in _ _ (fun l => / INR B * rsum l (fun s => exp (snd s)))).
  - rewrite E_scal, E_indep_sum by auto. field. apply not_0_INR. lia.
  - intros l w Hin. pose proof (Hlen B l w Hin) as Hl. rewrite logz_mean by (destruct l; cbn in *; [lia|discriminate]).
    rewrite map_length, Hl, rsum_map. unfold Rdiv. ring.
Qed.

(** The interpolated energy, and what happens without data_mean. *)
Lemma ebm_forward_base {A} (net b : A -> R) t x : ebm_forward net (Some b) (Some t) x = b x + t * net x.
Proof. unfold ebm_forward. ring. Qed.
Theorem ais_without_mean {A} (net : A -> R) L (K : nat -> A -> dist A) : (forall t x, is_prob (K t x)) -> forall x,
  E (ais_run (fun t => ebm_forward net None (Some (INR t / INR L))) K L 0 (x, 0)) (fun s => exp (snd s)) = 1.
Proof.
  intros HK x.
  assert (H : forall n t x, E (ais_run (fun t => ebm_forward net None (Some (INR t / INR L))) K n t (x, 0)) (fun s => exp (snd s)) = 1).
  { induction n as [|n IH]; intros t y; cbn [ais_run].
    - rewrite E_ret. apply exp_0.
    - rewrite E_bind. unfold ais_step. rewrite E_dmap. cbn [fst snd]. unfold ebm_forward at 2 3.
      rewrite (E_ext _ _ (fun _ => 1)); [apply HK|]. intros a. replace (0 + net y - net y) with 0 by ring. apply IH. }
  apply H.
Qed.

(** The base log-probability without guard: exactly the law the initial samples are drawn from, of total mass one. *)
Lemma base_normalised mean : Forall (fun m => 0 < m < 1) mean -> rsum (states (length mean) 2) (fun x => exp (base_logprob 0 mean x)) = 1.
Proof.
  induction mean as [|m mean IH]; intros H.
  - cbn. unfold base_logprob. cbn. rewrite exp_0. ring.
  - inversion H as [|? ? Hm Hr]; subst. specialize (IH Hr).
    unfold states in *. cbn [length lists_over]. rewrite rsum_flat_map. cbn [seq rsum]. rewrite !rsum_map.
    rewrite (rsum_ext _ (fun b => exp (base_logprob 0 (m :: mean) (0%nat :: b))) (fun b => (1 - m) * exp (base_logprob 0 mean b))).
    2:{ intros b _. unfold base_logprob. cbn [combine rsum fst snd INR]. rewrite exp_plus. f_equal. replace (0 * ln (m + 0) + (1 - 0) * ln (1 + (- m + 0))) with (ln (1 - m)) by (replace (1 + (- m + 0)) with (1 - m) by ring; ring). apply exp_ln. lra. }
    rewrite (rsum_ext _ (fun b => exp (base_logprob 0 (m :: mean) (1%nat :: b))) (fun b => m * exp (base_logprob 0 mean b))).
    2:{ intros b _. unfold base_logprob. cbn [combine rsum fst snd INR]. rewrite exp_plus. f_equal. replace (1 * ln (m + 0) + (1 - 1) * ln (1 + (- m + 0))) with (ln m) by (rewrite Rplus_0_r; ring). apply exp_ln. lra. }
    rewrite !rsum_scal. cbn [seq] in IH. rewrite IH. ring.
Qed.
Lemma init_samples_law mean : Forall (fun m => 0 < m < 1) mean -> forall h,
  E (init_samples mean) h = rsum (states (length mean) 2) (fun x => exp (base_logprob 0 mean x) * h x).
Proof.
  induction mean as [|m mean IH]; intros H h.
  - cbn. unfold base_logprob. cbn. rewrite exp_0. ring.
  - inversion H as [|? ? Hm Hr]; subst. specialize (IH Hr). unfold init_samples in *. cbn [map indep]. rewrite E_bind, E_dmap, E_bernoulli, !E_dmap, !IH.
    unfold states in *. cbn [length lists_over]. rewrite rsum_flat_map. cbn [seq rsum]. rewrite !rsum_map.
    rewrite (rsum_ext _ (fun b => exp (base_logprob 0 (m :: mean) (0%nat :: b)) * h (0%nat :: b)) (fun b => (1 - m) * (exp (base_logprob 0 mean b) * h (0%nat :: b)))).
    2:{ intros b _. unfold base_logprob. cbn [combine rsum fst snd INR]. rewrite exp_plus, <- Rmult_assoc. f_equal. f_equal. replace (0 * ln (m + 0) + (1 - 0) * ln (1 + (- m + 0))) with (ln (1 - m)) by (replace (1 + (- m + 0)) with (1 - m) by ring; ring). apply exp_ln. lra. }
    rewrite (rsum_ext _ (fun b => exp (base_logprob 0 (m :: mean) (1%nat :: b)) * h (1%nat :: b)) (fun b => m * (exp (base_logprob 0 mean b) * h (1%nat :: b)))).
    2:{ intros b _. unfold base_logprob. cbn [combine rsum fst snd INR]. rewrite exp_plus, <- Rmult_assoc. f_equal. f_equal. replace (1 * ln (m + 0) + (1 - 1) * ln (1 + (- m + 0))) with (ln m) by (rewrite Rplus_0_r; ring). apply exp_ln. lra. }
    rewrite !rsum_scal. ring.
Qed.

Lemma ais_run_mass {A} (S : list A) (f : nat -> A -> R) (K : nat -> A -> dist A) n : forall t, (forall k, (t < k <= t + n)%nat -> proper S (K k)) ->
  forall s, In (fst s) S -> mass (ais_run f K n t s) = 1.
Proof.
  induction n as [|n IH]; intros t HK s Hs; cbn [ais_run]; [apply mass_ret|].
  unfold mass. rewrite E_bind. unfold ais_step. rewrite E_dmap. destruct (HK (Datatypes.S t) ltac:(lia) (fst s) Hs) as [Hp Hsup].
  rewrite (E_ext_in _ _ (fun _ => 1)); [apply Hp|]. intros y w Hy. apply (IH (Datatypes.S t)); [intros; apply HK; lia|]. exact (Hsup y w Hy).
Qed.

(** The image EBM under AIS: expectation of the reported exp(logz). *)
Theorem ais_image_ebm (net : list nat -> R) mean L B (K : nat -> list nat -> dist (list nat)) :
  Forall (fun m => 0 < m < 1) mean -> (0 < L)%nat -> (0 < B)%nat ->
  let f t := ebm_forward net (Some (base_logprob 0 mean)) (Some (INR t / INR L)) in
  (forall k, (0 < k <= L)%nat -> invariant (states (length mean) 2) (fun x => exp (f k x)) (K k) /\ proper (states (length mean) 2) (K k)) ->
  E (indep (repeat (ais_chain (init_samples mean) f K L) B)) (fun l => exp (logz (map snd l)))
  = rsum (states (length mean) 2) (fun x => exp (net x + base_logprob 0 mean x)).
Proof.
  intros Hm HL HB f HK.
  assert (Hf0 : forall x, f 0%nat x = base_logprob 0 mean x) by (intros; unfold f, ebm_forward; cbn [INR]; unfold Rdiv; ring).
  assert (Hlaw : forall h, E (ais_chain (init_samples mean) f K L) h = rsum (states (length mean) 2) (fun x => exp (f 0%nat x) * E (ais_run f K L 0 (x, 0)) h)).
  { intros h. unfold ais_chain. rewrite E_bind, init_samples_law by auto. apply rsum_ext. intros x _. rewrite Hf0. reflexivity. }
  rewrite logz_unbiased; auto.
  - rewrite Hlaw. rewrite (rsum_ext _ _ (fun x => exp (f 0%nat x) * E (ais_run f K L 0 (x, 0)) (fun s => exp (snd s) * 1))).
    + rewrite (ais_weight _ _ f K L 0 (fun k Hk => proj1 (HK k Hk)) (fun _ => 1)). cbn [Nat.add]. apply rsum_ext. intros x _. rewrite Rmult_1_r. f_equal.
      unfold f, ebm_forward, Rdiv. rewrite Rinv_r by (apply not_0_INR; lia). ring.
    + intros x _. f_equal. apply E_ext. intros; ring.
  - unfold mass. rewrite Hlaw. rewrite (rsum_ext _ _ (fun x => exp (base_logprob 0 mean x))); [apply base_normalised; auto|].
    intros x Hx. rewrite Hf0. change (E (ais_run f K L 0 (x, 0)) (fun _ => 1)) with (mass (ais_run f K L 0 (x, 0))).
    rewrite (ais_run_mass (states (length mean) 2)); [ring|intros k Hk; apply HK; lia|exact Hx].
Qed.
