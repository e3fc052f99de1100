(** Proofs about factorial hidden Markov models. *)
From Coq Require Import Reals List Arith Lra Lia Factorial.
From Verif.Base Require Import RSum Cube Dist XFloat.
From Verif.Spec Require Import Latent.
From Verif.Model Require Import RBM FHMM.
Import ListNotations.
Local Open Scope R_scope.

Lemma rsum_rprod_combine (C : nat) (tr : nat -> nat -> R) row :
  rsum (states (length row) C) (fun r => rprod (combine row r) (fun ab => tr (fst ab) (snd ab))) = rprod row (fun a => rsum (seq 0 C) (tr a)).
Proof.
  induction row as [|a row IH]; [cbn; ring|]. unfold states in *. cbn [length lists_over]. rewrite rsum_flat_map. cbn [rprod]. rewrite <- IH.
  rewrite <- rsum_scal_r. apply rsum_ext. intros v _. rewrite rsum_map. cbn [combine rprod fst snd]. rewrite rsum_scal. reflexivity.
Qed.
Lemma rsum_rprod_row (C k : nat) (p0 : nat -> R) : rsum (states k C) (fun r => rprod r p0) = rsum (seq 0 C) p0 ^ k.
Proof.
  induction k as [|k IH]; [cbn; ring|]. unfold states in *. cbn [lists_over]. rewrite rsum_flat_map. cbn [pow]. rewrite <- IH, <- rsum_scal_r.
  apply rsum_ext. intros v _. rewrite rsum_map. cbn [rprod]. rewrite rsum_scal. reflexivity.
Qed.
Lemma path_steps_total C k tr m : (forall a, (a < C)%nat -> rsum (seq 0 C) (tr a) = 1) -> forall row, In row (states k C) ->
  rsum (lists_over (states k C) m) (path_steps tr row) = 1.
Proof.
  intros Htr. induction m as [|m IH]; intros row Hrow; [cbn; ring|]. cbn [lists_over]. rewrite rsum_flat_map.
  rewrite (rsum_ext _ _ (fun r => rprod (combine row r) (fun ab => tr (fst ab) (snd ab)))).
  - apply in_states in Hrow. destruct Hrow as [<- Hr]. rewrite rsum_rprod_combine. clear IH.
    induction row as [|a row IHr]; [reflexivity|]. inversion Hr; subst. cbn [rprod]. rewrite Htr, IHr by auto. ring.
  - intros r Hr. rewrite rsum_map. cbn [path_steps]. rewrite rsum_scal, IH by auto. ring.
Qed.
Theorem path_prob_total C k l p0 tr : (0 < l)%nat -> rsum (seq 0 C) p0 = 1 -> (forall a, (a < C)%nat -> rsum (seq 0 C) (tr a) = 1) ->
  rsum (lists_over (states k C) l) (path_prob p0 tr) = 1.
Proof.
  intros Hl Hp Htr. destruct l as [|l]; [lia|]. cbn [lists_over]. rewrite rsum_flat_map.
  rewrite (rsum_ext _ _ (fun r => rprod r p0)); [rewrite rsum_rprod_row, Hp, pow1; reflexivity|].
  intros r Hr. rewrite rsum_map. cbn [path_prob]. rewrite rsum_scal, (path_steps_total C k) by auto. ring.
Qed.

(** ** Binary chains *)

Lemma bern_vec_gen ps g : E (bern_vec ps) g = rsum (states (length ps) 2) (fun h => rprod (combine h ps) (fun q => one_with (snd q) (fst q)) * g h).
Proof.
  revert g. induction ps as [|p ps IH]; intros g; [cbn; ring|]. unfold bern_vec in *. cbn [map indep]. rewrite E_bind, E_dmap, E_bernoulli, !E_dmap, !IH.
  unfold states. cbn [length lists_over]. rewrite rsum_flat_map. cbn [seq rsum]. rewrite !rsum_map. fold (states (length ps) 2). rewrite Rplus_0_r, Rplus_comm, <- !rsum_scal.
  f_equal; apply rsum_ext; intros h _; cbn [combine rprod fst snd]; unfold one_with at 2; cbn [Nat.eqb]; ring.
Qed.

Lemma exp_log_px p x : 0 < p < 1 -> (x < 2)%nat -> exp (log_px p (INR x)) = one_with p x.
Proof.
  intros Hp Hx. unfold log_px, one_with. destruct x as [|[|x]]; [| |lia]; cbn [INR Nat.eqb].
  - rewrite Rmult_0_r, Rminus_0_r, Rmult_1_r, Rplus_0_l. apply exp_ln. lra.
  - replace (ln p * 1 + ln (1 - p) * (1 - 1)) with (ln p) by ring. apply exp_ln. lra.
Qed.
Lemma exp_log_change beta a b : 0 < beta < 1 -> (a < 2)%nat -> (b < 2)%nat -> exp (log_px (1 - beta) (x_change (INR a) (INR b))) = stay beta a b.
Proof.
  intros Hb Ha Hb'. unfold stay. destruct a as [|[|a]]; [| |lia]; destruct b as [|[|b]]; try lia; cbn [Nat.eqb]; unfold x_change; cbn [INR].
  - replace (0 * (1 - 0) + (1 - 0) * 0) with (INR 0) by (cbn; ring). rewrite exp_log_px by (lra || lia). unfold one_with. cbn. ring.
  - replace (0 * (1 - 1) + (1 - 0) * 1) with (INR 1) by (cbn; ring). rewrite exp_log_px by (lra || lia). unfold one_with. cbn. ring.
  - replace (1 * (1 - 0) + (1 - 1) * 0) with (INR 1) by (cbn; ring). rewrite exp_log_px by (lra || lia). unfold one_with. cbn. ring.
  - replace (1 * (1 - 1) + (1 - 1) * 1) with (INR 0) by (cbn; ring). rewrite exp_log_px by (lra || lia). unfold one_with. cbn. ring.
Qed.

Lemma pairs_cons {A} (a b : A) l : pairs (a :: b :: l) = (a, b) :: pairs (b :: l).
Proof. reflexivity. Qed.
Lemma pairs_one {A} (a : A) : pairs [a] = [].
Proof. reflexivity. Qed.

Lemma exp_rsum_combine (f g : nat * nat -> R) (C : nat) (H : forall a b, (a < C)%nat -> (b < C)%nat -> exp (f (a, b)) = g (a, b)) r : forall s,
  Forall (fun v => (v < C)%nat) r -> Forall (fun v => (v < C)%nat) s -> exp (rsum (combine r s) f) = rprod (combine r s) g.
Proof.
  induction r as [|a r IH]; intros [|b s] Hr Hs; cbn [combine rsum rprod]; try apply exp_0. inversion Hr; inversion Hs; subst. rewrite exp_plus, H, IH by auto. reflexivity.
Qed.
Lemma exp_rsum_row (f g : nat -> R) (C : nat) (H : forall a, (a < C)%nat -> exp (f a) = g a) r : Forall (fun v => (v < C)%nat) r -> exp (rsum r f) = rprod r g.
Proof. induction r as [|a r IH]; intros Hr; cbn [rsum rprod]; [apply exp_0|]. inversion Hr; subst. rewrite exp_plus, H, IH by auto. reflexivity. Qed.
Lemma exp_pairs C (f g : nat * nat -> R) (H : forall a b, (a < C)%nat -> (b < C)%nat -> exp (f (a, b)) = g (a, b)) rows : forall r,
  Forall (Forall (fun v => (v < C)%nat)) (r :: rows) ->
  exp (rsum (pairs (r :: rows)) (fun rr => rsum (combine (fst rr) (snd rr)) f)) = path_steps (fun a b => g (a, b)) r rows.
Proof.
  induction rows as [|r' rows IH]; intros r HF; [rewrite pairs_one; apply exp_0|]. rewrite pairs_cons. cbn [rsum fst snd path_steps]. inversion HF as [|? ? H1 H2]; subst. inversion H2; subst.
  rewrite exp_plus, IH by auto. f_equal. rewrite (exp_rsum_combine f g C H) by auto.
  clear. induction (combine r r') as [|[a b] l IH]; cbn [rprod]; [reflexivity|]. rewrite IH. reflexivity.
Qed.

Lemma exp_neg_div l (h : list nat * R -> R) D : exp (- rsum l h / D) = rprod l (fun ry => exp (- h ry / D)).
Proof.
  induction l as [|a l IH]; cbn [rsum rprod]; [unfold Rdiv; rewrite Ropp_0, Rmult_0_l; apply exp_0|]. rewrite <- IH, <- exp_plus. f_equal. unfold Rdiv. ring.
Qed.

Theorem bin_forward_joint alpha beta sigma b w y k l rows : 0 < alpha < 1 -> 0 < beta < 1 -> (0 < l)%nat -> In rows (lists_over (states k 2) l) ->
  exp (bin_forward alpha beta sigma b w y rows)
  = path_prob (one_with alpha) (stay beta) rows
    * rprod (combine rows y) (fun ry => exp (- (snd ry - (rsum (combine (fst ry) w) (fun xw => INR (fst xw) * snd xw) + b)) ^ 2 / (2 * sigma ^ 2))).
Proof.
  intros Ha Hb Hl Hin. apply in_lists_over in Hin. destruct Hin as [Hlen Hr].
  assert (HF : Forall (Forall (fun v => (v < 2)%nat)) rows) by (eapply Forall_impl; [|exact Hr]; cbv beta; intros r Hs; apply in_states in Hs; apply Hs).
  unfold bin_forward. rewrite exp_plus. f_equal.
  - destruct rows as [|r rows]; [cbn in Hlen; lia|]. unfold bin_logp_x. cbn [hd path_prob]. rewrite exp_plus. f_equal.
    + inversion HF; subst. apply (exp_rsum_row _ _ 2); auto. intros a Hlt. apply exp_log_px; auto.
    + apply (exp_pairs 2 (fun ab => log_px (1 - beta) (x_change (INR (fst ab)) (INR (snd ab)))) (fun ab => stay beta (fst ab) (snd ab))); auto.
      intros a c H1 H2. apply exp_log_change; auto.
  - unfold bin_logp_y. rewrite exp_neg_div. apply rprod_ext. intros ry _. do 3 f_equal. ring.
Qed.

Lemma stay_total beta a : (a < 2)%nat -> rsum (seq 0 2) (stay beta a) = 1.
Proof. intros H. unfold stay. destruct a as [|[|a]]; [| |lia]; cbn; ring. Qed.
Lemma one_with_total p : rsum (seq 0 2) (one_with p) = 1.
Proof. unfold one_with. cbn. ring. Qed.

Lemma rprod_combine_swap (f : nat -> nat -> R) r : forall s, rprod (combine s (map (fun x : nat => x) r)) (fun q => f (snd q) (fst q)) = rprod (combine r s) (fun q => f (fst q) (snd q)).
Proof. induction r as [|a r IH]; intros [|b s]; cbn [map combine rprod fst snd]; auto. rewrite IH. reflexivity. Qed.

Lemma bin_next_law beta row k : In row (states k 2) -> forall g,
  E (bern_vec (map (fun x => beta * INR x + (1 - beta) * (1 - INR x)) row)) g = rsum (states k 2) (fun r => rprod (combine row r) (fun ab => stay beta (fst ab) (snd ab)) * g r).
Proof.
  intros Hrow g. apply in_states in Hrow. destruct Hrow as [Hl HF]. rewrite bern_vec_gen, map_length, Hl. apply rsum_ext. intros r Hr. f_equal.
  apply in_states in Hr. destruct Hr as [_ HFr]. clear g Hl k. revert r HFr. induction row as [|a row IH]; intros [|b r] HFr; cbn [map combine rprod fst snd]; auto.
  inversion HF; inversion HFr; subst. rewrite IH by auto. f_equal. unfold one_with, stay. destruct a as [|[|a]]; [| |lia]; destruct b as [|[|b]]; try lia; cbn; ring.
Qed.
Lemma bin_sample_rest_law beta m k : forall row, In row (states k 2) -> forall g,
  E (bin_sample_rest beta m row) g = rsum (lists_over (states k 2) m) (fun rows => path_steps (stay beta) row rows * g rows).
Proof.
  induction m as [|m IH]; intros row Hrow g; cbn [bin_sample_rest lists_over].
  - rewrite E_ret. cbn. ring.
  - rewrite E_bind, (bin_next_law beta row k Hrow), rsum_flat_map. apply rsum_ext. intros r Hr. rewrite E_dmap, (IH r Hr), rsum_map, <- rsum_scal. apply rsum_ext.
    intros rows _. cbn [path_steps]. ring.
Qed.
Theorem bin_sample_law alpha beta l k g : (0 < l)%nat ->
  E (bin_sample_X alpha beta l k) g = rsum (lists_over (states k 2) l) (fun rows => path_prob (one_with alpha) (stay beta) rows * g rows).
Proof.
  intros Hl. destruct l as [|l]; [lia|]. unfold bin_sample_X. cbn [lists_over]. rewrite E_bind, bern_vec_gen, map_length, repeat_length, rsum_flat_map.
  apply rsum_ext. intros r Hr. rewrite E_dmap. replace (S l - 1)%nat with l by lia. rewrite (bin_sample_rest_law beta l k r Hr), rsum_map, <- rsum_scal.
  apply rsum_ext. intros rows _. cbn [path_prob].
  assert (rprod (combine r (map (fun o => o * alpha) (repeat 1 k))) (fun q => one_with (snd q) (fst q)) = rprod r (one_with alpha)) as ->; [|ring].
  apply in_states in Hr. destruct Hr as [<- _]. clear. induction r as [|a r IH]; [reflexivity|]. cbn [length repeat map combine rprod fst snd]. rewrite IH, Rmult_1_l. reflexivity.
Qed.

(** At the ends of the parameter range the energy is not a number. *)
Lemma degenerate_nan : log_px_xf (1 - 1) 0 = NaN.
Proof.
  unfold log_px_xf. replace (1 - 1) with 0 by ring. rewrite xlog_0. unfold xmul at 1. destruct (Rlt_dec 0 0); [lra|]. reflexivity.
Qed.

(** ** Categorical chains *)
Section Categ.
Variable n : nat.
Hypothesis Hn : (1 < n)%nat.
Let N1 : 0 < INR n - 1.
Proof. apply lt_INR in Hn. cbn [INR] in Hn. lra. Qed.

Lemma table_diag beta i : trans_table n beta i i = beta - (1 - beta) / (INR n - 1) + (1 - (beta - (1 - beta) / (INR n - 1))) / (INR n - 1).
Proof. unfold trans_table. rewrite Nat.eqb_refl. reflexivity. Qed.
Lemma table_off beta i j : i <> j -> trans_table n beta i j = 1 / (INR n - 1).
Proof. intros H. unfold trans_table. destruct (Nat.eqb_spec i j); [contradiction|]. unfold Rdiv. ring. Qed.

Definition row_total (beta : R) : R := 1 + trans_table n beta 0 0.
Lemma row_sum beta i : (i < n)%nat -> rsum (seq 0 n) (trans_table n beta i) = row_total beta.
Proof.
  intros Hi. rewrite (rsum_ext _ _ (fun j => 1 / (INR n - 1) + (if Nat.eqb i j then trans_table n beta 0 0 - 1 / (INR n - 1) else 0))).
  - rewrite rsum_plus, rsum_const, seq_length. rewrite (rsum_single (seq 0 n) _ i); [|apply seq_NoDup|apply in_seq; lia|intros j _ Hj; destruct (Nat.eqb_spec i j); [congruence|reflexivity]].
    rewrite Nat.eqb_refl. unfold row_total. field. lra.
  - intros j _. destruct (Nat.eqb_spec i j) as [<-|Hij]; [rewrite !table_diag; ring|rewrite table_off by auto; ring].
Qed.
Lemma diag_pos beta : 0 <= beta <= 1 -> 0 < trans_table n beta 0 0.
Proof.
  intros Hb. rewrite table_diag. set (q := INR n - 1) in *. assert (Hq : 1 <= q) by (unfold q; assert (2 <= n)%nat as H by lia; apply le_INR in H; cbn [INR] in H; lra).
  replace (beta - (1 - beta) / q + (1 - (beta - (1 - beta) / q)) / q) with ((beta * (q * q) - beta + 1) / (q * q)) by (field; lra).
  assert (Hqq : 1 <= q * q) by nra. assert (0 <= beta * (q * q - 1)) by (apply Rmult_le_pos; lra). apply Rdiv_lt_0_compat; lra.
Qed.
Theorem row_sum_above_one beta i : 0 <= beta <= 1 -> (i < n)%nat -> 1 < rsum (seq 0 n) (trans_table n beta i).
Proof. intros Hb Hi. rewrite row_sum by auto. unfold row_total. pose proof (diag_pos beta Hb). lra. Qed.

(** The table divided by its row sum: stay with probability q, otherwise move uniformly. *)
Notation stay_cat := (stay_cat n).
Definition eff_stay (beta : R) : R := trans_table n beta 0 0 / row_total beta.
Lemma table_normalised beta a b : 0 <= beta <= 1 -> trans_table n beta a b = row_total beta * stay_cat (eff_stay beta) a b.
Proof.
  intros Hb. pose proof (diag_pos beta Hb). unfold stay_cat, eff_stay, row_total. destruct (Nat.eqb_spec a b) as [<-|Hab].
  - replace (trans_table n beta a a) with (trans_table n beta 0 0) by (rewrite !table_diag; reflexivity). field. lra.
  - rewrite table_off by auto. field. lra.
Qed.
Lemma eff_stay_range beta : 0 <= beta <= 1 -> 0 < eff_stay beta < 1.
Proof.
  intros Hb. pose proof (diag_pos beta Hb). unfold eff_stay, row_total. split; [apply Rdiv_lt_0_compat; lra|].
  apply (Rmult_lt_reg_r (1 + trans_table n beta 0 0)); [lra|]. unfold Rdiv. rewrite Rmult_assoc, Rinv_l by lra. lra.
Qed.
Lemma stay_cat_total q a : (a < n)%nat -> rsum (seq 0 n) (stay_cat q a) = 1.
Proof.
  intros Ha. rewrite (rsum_ext _ _ (fun j => (1 - q) / (INR n - 1) + (if Nat.eqb a j then q - (1 - q) / (INR n - 1) else 0))).
  - rewrite rsum_plus, rsum_const, seq_length. rewrite (rsum_single (seq 0 n) _ a); [|apply seq_NoDup|apply in_seq; lia|intros j _ Hj; destruct (Nat.eqb_spec a j); [congruence|reflexivity]].
    rewrite Nat.eqb_refl. field. lra.
  - intros j _. unfold stay_cat. destruct (Nat.eqb a j); ring.
Qed.

Lemma hotn_sum x (f : nat -> R) : (x < n)%nat -> rsum (seq 0 n) (fun c => INR (hotn x c) * f c) = f x.
Proof.
  intros H. rewrite (rsum_single _ _ x); [unfold hotn; rewrite Nat.eqb_refl; cbn [INR]; ring|apply seq_NoDup|apply in_seq; lia|].
  intros c _ Hc. unfold hotn. destruct (Nat.eqb_spec x c); [congruence|cbn; ring].
Qed.
Lemma lgamma1_hot x c : lgamma1 (hotn x c) = 0.
Proof. unfold lgamma1, hotn. destruct (Nat.eqb x c); cbn; apply ln_1. Qed.
Lemma hotn_total x : (x < n)%nat -> list_sum (map (hotn x) (seq 0 n)) = 1%nat.
Proof.
  intros H. replace n with (x + (1 + (n - x - 1)))%nat by lia. rewrite !seq_app, !map_app, !list_sum_app. cbn [Nat.add seq map list_sum fold_right].
  assert (K : forall m s, (forall j, In j (seq s m) -> j <> x) -> list_sum (map (hotn x) (seq s m)) = 0%nat).
  { induction m as [|m IH]; intros s Hs; [reflexivity|]. cbn [seq map]. change (list_sum (?a :: ?l)) with (a + list_sum l)%nat. rewrite IH by (intros; apply Hs; right; auto).
    unfold hotn. destruct (Nat.eqb_spec x s); [exfalso; apply (Hs s); cbn; auto|reflexivity]. }
  rewrite !K by (intros j Hj; apply in_seq in Hj; lia). unfold hotn. rewrite Nat.eqb_refl. reflexivity.
Qed.
Lemma log_px_categ_val alpha x : (x < n)%nat -> log_px_categ n alpha x = alpha x.
Proof.
  intros H. unfold log_px_categ. rewrite hotn_total, hotn_sum by auto. rewrite rsum_const0 by (intros; apply lgamma1_hot). unfold lgamma1. cbn [fact INR Nat.mul Nat.add]. rewrite ln_1. ring.
Qed.

Lemma trans_table_pos beta a b : 0 <= beta <= 1 -> 0 < trans_table n beta a b.
Proof.
  intros Hb. rewrite table_normalised by auto. apply Rmult_lt_0_compat; [unfold row_total; pose proof (diag_pos beta Hb); lra|]. unfold stay_cat.
  pose proof (eff_stay_range beta Hb). destruct (Nat.eqb a b); [lra|]. apply Rdiv_lt_0_compat; lra.
Qed.

Lemma path_steps_scale (c : R) tr rows : forall row, Forall (fun r => length r = length row) rows ->
  path_steps (fun a b => c * tr a b) row rows = c ^ (length row * length rows) * path_steps tr row rows.
Proof.
  induction rows as [|r rows IH]; intros row HF; cbn [path_steps length]; [rewrite Nat.mul_0_r; cbn; ring|]. inversion HF as [|? ? H1 H2]; subst. rewrite IH by (rewrite H1; auto).
  assert (K : forall x y : list nat, length x = length y -> rprod (combine x y) (fun ab => c * tr (fst ab) (snd ab)) = c ^ length x * rprod (combine x y) (fun ab => tr (fst ab) (snd ab))).
  { induction x as [|a x IHx]; intros [|b y] Hl; try discriminate; [cbn; ring|]. injection Hl as Hl. cbn [combine rprod length fst snd pow]. rewrite IHx by auto. ring. }
  rewrite K by auto. rewrite H1. replace (length row * S (length rows))%nat with (length row + length row * length rows)%nat by lia. rewrite pow_add. ring.
Qed.

Theorem cat_forward_joint alpha beta sigma b w y k l rows : 0 <= beta <= 1 -> (0 < l)%nat -> In rows (lists_over (states k n) l) ->
  exp (cat_forward n alpha beta sigma b w k y rows)
  = row_total beta ^ (k * (l - 1)) * path_prob (fun c => exp (alpha c)) (stay_cat (eff_stay beta)) rows
    * rprod (combine rows y) (fun ry => exp (- (snd ry - (rsum (seq 0 k) (fun i => w i (nth i (fst ry) 0%nat)) + b)) ^ 2 / (2 * sigma ^ 2))).
Proof.
  intros Hb Hl Hin. apply in_lists_over in Hin. destruct Hin as [Hlen Hr].
  assert (HF : Forall (Forall (fun v => (v < n)%nat)) rows) by (eapply Forall_impl; [|exact Hr]; cbv beta; intros r Hs; apply in_states in Hs; apply Hs).
  unfold cat_forward. rewrite !exp_plus.
  assert (HY : exp (cat_logp_y n sigma b w k y rows) = rprod (combine rows y) (fun ry => exp (- (snd ry - (rsum (seq 0 k) (fun i => w i (nth i (fst ry) 0%nat)) + b)) ^ 2 / (2 * sigma ^ 2)))).
  { unfold cat_logp_y. rewrite exp_neg_div. clear HF Hlen. revert y. induction rows as [|r rows IH]; intros [|y0 y]; cbn [combine rprod]; auto. inversion Hr; subst. rewrite IH by auto. f_equal.
    cbn [fst snd]. match goal with H : In r _ |- _ => apply in_states in H; destruct H as [Hk Hv] end.
    rewrite (rsum_ext (seq 0 k) (fun i => rsum (seq 0 n) (fun c => INR (hotn (nth i r 0%nat) c) * w i c)) (fun i => w i (nth i r 0%nat))).
    - f_equal. f_equal. f_equal. ring.
    - intros i Hi. apply in_seq in Hi. rewrite Forall_nth_iff with (d := 0%nat) in Hv. apply hotn_sum. apply Hv. lia. }
  rewrite HY.
  enough (HX : exp (cat_logp_x n beta rows) * exp (rsum (hd [] rows) (log_px_categ n alpha)) = row_total beta ^ (k * (l - 1)) * path_prob (fun c => exp (alpha c)) (stay_cat (eff_stay beta)) rows) by (rewrite <- HX; ring).
  destruct rows as [|r rows]; [cbn in Hlen; lia|]. cbn [hd path_prob]. inversion HF as [|? ? H1 H2]; subst. inversion Hr as [|? ? R1 R2]; subst.
  rewrite (exp_rsum_row (log_px_categ n alpha) (fun c => exp (alpha c)) n) by (auto; intros a Ha; rewrite log_px_categ_val by auto; reflexivity).
  unfold cat_logp_x.
  rewrite (exp_pairs n _ (fun ab => row_total beta * stay_cat (eff_stay beta) (fst ab) (snd ab))) by
    (auto; intros a c Ha Hc; cbn [fst snd];
     rewrite (rsum_ext (seq 0 n) _ (fun c0 => INR (hotn a c0) * ln (trans_table n beta c0 c))) by
       (intros c0 _; rewrite <- (hotn_sum c (fun c' => ln (trans_table n beta c0 c')) Hc), <- rsum_scal; apply rsum_ext; intros; ring);
     rewrite (hotn_sum a (fun c0 => ln (trans_table n beta c0 c)) Ha), exp_ln by (apply trans_table_pos; auto); apply table_normalised; auto).
  cbn [fst snd]. apply in_states in R1. destruct R1 as [R1 _]. rewrite path_steps_scale.
  - rewrite R1. cbn [length]. rewrite Nat.sub_succ, Nat.sub_0_r. ring.
  - rewrite Forall_forall in R2 |- *. intros s Hs. apply R2 in Hs. apply in_states in Hs. lia.
Qed.

(** The law of the generated hidden paths. *)
Lemma cat_row_law (logits : nat -> nat -> R) (tr : nat -> nat -> R) row k : length row = k ->
  (forall a, In a row -> forall g, E (categorical (map (logits a) (seq 0 n))) g = rsum (seq 0 n) (fun c => tr a c * g c)) ->
  forall g, E (cat_row n logits row) g = rsum (states k n) (fun r => rprod (combine row r) (fun ab => tr (fst ab) (snd ab)) * g r).
Proof.
  intros <- H. unfold cat_row. induction row as [|a row IH]; intros g; [cbn; ring|]. cbn [map indep length]. unfold states. cbn [lists_over]. rewrite E_bind, rsum_flat_map.
  rewrite H by (left; auto). apply rsum_ext. intros v _. rewrite E_dmap, IH by (intros; apply H; right; auto). rewrite rsum_map, <- rsum_scal. apply rsum_ext. intros r _. cbn [combine rprod fst snd]. ring.
Qed.
Lemma categorical_ln (p : nat -> R) S g : (forall c, (c < n)%nat -> 0 < p c) -> rsum (seq 0 n) p = S ->
  E (categorical (map (fun c => ln (p c)) (seq 0 n))) g = rsum (seq 0 n) (fun c => p c / S * g c).
Proof.
  intros Hp HS. rewrite E_categorical. rewrite map_length, seq_length. unfold sumexp. rewrite rsum_map.
  rewrite (rsum_ext (seq 0 n) (fun a => exp (ln (p a))) p) by (intros c Hc; apply in_seq in Hc; apply exp_ln, Hp; lia). rewrite HS.
  apply rsum_ext. intros c Hc. apply in_seq in Hc.
  rewrite (nth_indep _ 0 (ln (p 0%nat))) by (rewrite map_length, seq_length; lia). rewrite (map_nth (fun c => ln (p c)) (seq 0 n) 0%nat c), seq_nth by lia. cbn [Nat.add].
  rewrite exp_ln by (apply Hp; lia). reflexivity.
Qed.
Lemma cat_sample_rest_law beta m k : 0 <= beta <= 1 -> forall row, In row (states k n) -> forall g,
  E (cat_sample_rest n beta m row) g = rsum (lists_over (states k n) m) (fun rows => path_steps (stay_cat (eff_stay beta)) row rows * g rows).
Proof.
  intros Hb. induction m as [|m IH]; intros row Hrow g; cbn [cat_sample_rest lists_over].
  - rewrite E_ret. cbn. ring.
  - rewrite E_bind. pose proof Hrow as Hrow'. apply in_states in Hrow'. destruct Hrow' as [Hl HF]. rewrite Forall_forall in HF.
    rewrite (cat_row_law _ (stay_cat (eff_stay beta)) row k Hl).
    + rewrite rsum_flat_map. apply rsum_ext. intros r Hr. rewrite E_dmap, (IH r Hr), rsum_map, <- rsum_scal. apply rsum_ext. intros rows _. cbn [path_steps]. ring.
    + intros a Ha g'. specialize (HF a Ha). cbv beta in HF.
      rewrite (map_ext_in _ (fun c => ln (trans_table n beta a c))).
      * rewrite (categorical_ln (trans_table n beta a) (row_total beta)) by (try (intros; apply trans_table_pos; auto); apply row_sum; auto).
        apply rsum_ext. intros c _. rewrite table_normalised by auto. unfold row_total. pose proof (diag_pos beta Hb). field. lra.
      * intros c _. f_equal. apply (hotn_sum a (fun c0 => trans_table n beta c0 c) HF).
Qed.
Theorem cat_sample_law (p0 : nat -> R) beta l k g : 0 <= beta <= 1 -> (0 < l)%nat -> (forall c, (c < n)%nat -> 0 < p0 c) -> rsum (seq 0 n) p0 = 1 ->
  E (cat_sample_X n (fun c => ln (p0 c)) beta l k) g = rsum (lists_over (states k n) l) (fun rows => path_prob p0 (stay_cat (eff_stay beta)) rows * g rows).
Proof.
  intros Hb Hl Hp Hp1. destruct l as [|l]; [lia|]. unfold cat_sample_X. rewrite E_bind. cbn [lists_over].
  rewrite (cat_row_law _ (fun _ c => p0 c) (repeat 0%nat k) k (repeat_length _ _)).
  - rewrite rsum_flat_map. apply rsum_ext. intros r Hr. rewrite E_dmap. replace (S l - 1)%nat with l by lia. rewrite (cat_sample_rest_law beta l k Hb r Hr), rsum_map, <- rsum_scal.
    apply rsum_ext. intros rows _. cbn [path_prob].
    assert (rprod (combine (repeat 0%nat k) r) (fun ab => p0 (snd ab)) = rprod r p0) as ->; [|ring].
    apply in_states in Hr. destruct Hr as [<- _]. clear. induction r as [|a r IH]; [reflexivity|]. cbn [length repeat combine rprod snd]. rewrite IH. reflexivity.
  - intros a _ g'. rewrite (categorical_ln p0 1) by auto. apply rsum_ext. intros c _. field.
Qed.
Lemma init_alpha_total alpha u : rsum (seq 1 (n - 1)) u <> 0 -> rsum (seq 0 n) (init_alpha n alpha u) = 1.
Proof.
  intros Hu. replace n with (S (n - 1)) at 1 by lia. cbn [seq rsum]. unfold init_alpha at 1.
  rewrite (rsum_ext (seq 1 (n - 1)) _ (fun c => alpha / rsum (seq 1 (n - 1)) u * u c)).
  - rewrite rsum_scal. field. auto.
  - intros c Hc. apply in_seq in Hc. unfold init_alpha. destruct c; [lia|]. unfold Rdiv. ring.
Qed.
End Categ.

Lemma table_refuted : exists n beta i, (2 < n)%nat /\ 0 < beta < 1 /\ (i < n)%nat /\ rsum (seq 0 n) (trans_table n beta i) <> 1 /\ eff_stay n beta <> beta.
Proof.
  exists 3%nat, (/ 2), 0%nat. split; [lia|]. split; [lra|]. split; [lia|]. split.
  - pose proof (row_sum_above_one 3 ltac:(lia) (/ 2) 0 ltac:(lra) ltac:(lia)). lra.
  - unfold eff_stay, row_total. rewrite table_diag. cbn [INR]. lra.
Qed.

Lemma num_energies_ok n B l k : (0 < l)%nat -> (0 < k)%nat -> (0 < n)%nat -> k <> n -> cat_num_energies n B l k = Some B.
Proof.
  intros Hl Hk Hn Hne. unfold cat_num_energies. destruct (Nat.eqb_spec k n); [contradiction|].
  replace (B * l * k * n)%nat with (B * (l * k * n))%nat by ring. assert (l * k * n <> 0)%nat by nia. rewrite Nat.mod_mul, Nat.div_mul by auto. reflexivity.
Qed.
Lemma num_energies_wrong n B l k : (0 < l)%nat -> (0 < B)%nat -> (1 < n)%nat -> k = n -> cat_num_energies n B l k <> Some B.
Proof.
  intros Hl HB Hn ->. unfold cat_num_energies. rewrite Nat.eqb_refl. destruct (Nat.eqb_spec ((B * l * n) mod (l * n * n)) 0) as [E|]; [|discriminate].
  intros H. injection H as H. assert (l * n * n <> 0)%nat by nia. pose proof (Nat.div_mod (B * l * n) (l * n * n) ltac:(auto)) as HD. rewrite H, E in HD. nia.
Qed.
