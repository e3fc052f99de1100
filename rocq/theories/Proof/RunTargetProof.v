From Coq Require Import String List Bool ZArith Reals Lra Lia Arith.
From Verif.Base Require Import RSum Cube Dist.
From Verif.Spec Require Import Grid Latent InitField RunTargetSpec.
From Verif.Model Require Import LocallyBalanced Launch FullRun Start Lattice LatticeRun Factorised RunTarget.
From Verif.Model Require FHMM.
From Verif.Proof Require Import GraphProof FactorisedProof InitFieldProof LatticeProof SameTargetProof FHMMProof.
Import ListNotations.
Local Open Scope string_scope.
Local Open Scope R_scope.

Lemma list_as_map (x : list nat) d : length x = d -> x = map (fun i => nth i x 0%nat) (seq 0 d).
Proof.
  intros <-. apply (list_eq_nth 0%nat); [rewrite map_length, seq_length; reflexivity|]. intros i Hi.
  rewrite (nth_indep (map _ _) 0%nat (nth 0 x 0%nat)) by (rewrite map_length, seq_length; exact Hi).
  rewrite (map_nth (fun i => nth i x 0%nat)), seq_nth by exact Hi. reflexivity.
Qed.
Lemma digit (v : nat) : (v < 2)%nat -> v = 0%nat \/ v = 1%nat. Proof. lia. Qed.

Lemma bern_weight d sigma p x : In x (states d 2) -> exp (bern_forward_int (bern_params d sigma p) x) = coins (d_field p) sigma x.
Proof.
  intros Hx. apply in_states in Hx. destruct Hx as [Hl Hf]. unfold bern_forward_int, bern_forward, bern_params, coins. rewrite Hl.
  rewrite (list_as_map x d Hl) at 1. rewrite map_map, combine_map2, rsum_map, exp_rsum. apply rprod_ext. intros i Hi. apply in_seq in Hi. cbn [fst snd].
  assert (V : (nth i x 0 < 2)%nat) by (rewrite Forall_forall in Hf; apply Hf, nth_In; lia).
  destruct (digit _ V) as [-> | ->]; cbn [Nat.eqb INR]; [rewrite Rmult_0_l; apply exp_0|f_equal; ring].
Qed.
Lemma cat_weight d C sigma p x : In x (states d C) -> exp (cat_forward C (cat_params d C sigma p) x) = dice (d_field p) sigma x.
Proof.
  intros Hx. apply in_states in Hx. destruct Hx as [Hl Hf]. unfold cat_forward, cat_forward_onehot, cat_params, dice. rewrite Hl.
  rewrite (list_as_map x d Hl) at 1. rewrite map_map, combine_map2, rsum_map, exp_rsum. apply rprod_ext. intros i Hi. apply in_seq in Hi. cbn [fst snd].
  rewrite one_hot_dot by (rewrite map_length, seq_length; reflexivity).
  assert (V : (nth i x 0 < C)%nat) by (rewrite Forall_forall in Hf; apply Hf, nth_In; lia).
  rewrite (nth_indep _ 0 (d_field p i 0%nat 0%nat * sigma)) by (rewrite map_length, seq_length; exact V).
  rewrite (map_nth (fun c => d_field p i c 0%nat * sigma)), seq_nth by exact V. cbn [Nat.add]. f_equal. ring.
Qed.

Lemma disc_side h w i j : in_disc h w i j <-> from_middle h w i j < sqrt (/ (2 * PI)).
Proof.
  pose proof PI_bounds as HP. split.
  - intros (r & H0 & H1 & H2). replace (/ (2 * PI)) with (r ^ 2); [rewrite sqrt_pow2; lra|]. apply (Rmult_eq_reg_l PI); [|lra]. rewrite H1. field. lra.
  - intros H. exists (sqrt (/ (2 * PI))). assert (0 < / (2 * PI)) by (apply Rinv_0_lt_compat; lra). split; [apply sqrt_lt_R0; assumption|]. split; [|exact H].
    rewrite pow2_sqrt by lra. field. lra.
Qed.
Lemma ising_field h w sigma mu u i j : ising_b h w sigma mu (fun i j => u i j 0%nat) i j = field u h w mu sigma i j 0%nat.
Proof.
  unfold field. destruct (field_values h w sigma mu (fun i j => u i j 0%nat) i j) as [A B].
  destruct Rlt_dec as [H|H]; [rewrite A by (apply disc_side, H)|rewrite B by (intros K; apply H, disc_side, K)]; cbv beta; ring.
Qed.
Lemma potts_field h w sigma mu u i j c : potts_b h w sigma mu u i j c = field u h w mu sigma i j c.
Proof.
  unfold field. destruct (potts_field_values h w sigma mu u i j c) as [A B].
  destruct Rlt_dec as [H|H]; [rewrite A by (apply disc_side, H)|rewrite B by (intros K; apply H, disc_side, K)]; ring.
Qed.
Lemma ising_weight_float h w la sigma mu p x : In x (states (h * w) 2) ->
  exp (ising_ll_value_and_grad h w (ising_wh la) (ising_wh la) (ising_b h w sigma mu (fun i j => d_field p i j 0%nat)) x) = spins (d_field p) h w la mu sigma x.
Proof.
  intros Hx. unfold ising_ll_value_and_grad, spins. rewrite ising_init_energy by (eapply binary_unflat; exact Hx). f_equal. change (site w x) with (unflat w x).
  f_equal. apply rsum_ext. intros [i j] _. cbn [fst snd]. rewrite ising_field. reflexivity.
Qed.
Lemma ising_weight_int h w la sigma mu p x : In x (states (h * w) 2) -> (exists z, la = IZR z) ->
  exp (ising_ll_forward h w (ising_wh la) (ising_wh la) (ising_b h w sigma mu (fun i j => d_field p i j 0%nat)) x) = spins (d_field p) h w la mu sigma x.
Proof.
  intros Hx [z ->]. rewrite <- ising_weight_float by exact Hx. f_equal. unfold ising_ll_forward, ising_ll_value_and_grad.
  assert (E : ising_wh (IZR z) = fun i j => IZR ((fun _ _ => - z)%Z i j)).
  { unfold ising_wh. apply FunctionalExtensionality.functional_extensionality. intros i. apply FunctionalExtensionality.functional_extensionality. intros j. rewrite opp_IZR. ring. }
  rewrite E. apply ising_int_integral. eapply binary_unflat; exact Hx.
Qed.
Lemma ising_weight_lost h w la sigma mu p x : In x (states (h * w) 2) -> Rabs la < 1 ->
  exp (ising_ll_forward h w (ising_wh la) (ising_wh la) (ising_b h w sigma mu (fun i j => d_field p i j 0%nat)) x) = spins (d_field p) h w 0 mu sigma x.
Proof.
  intros Hx Hl. unfold ising_ll_forward, spins. assert (Hb : binary (unflat w x)) by (eapply binary_unflat; exact Hx).
  rewrite ising_int_spec; [|exact Hb|intros; unfold ising_wh; rewrite Rmult_1_r, Rabs_Ropp; exact Hl|intros; unfold ising_wh; rewrite Rmult_1_r, Rabs_Ropp; exact Hl].
  unfold grid_energy. rewrite (rsum_const0 (v_edges h w)), (rsum_const0 (h_edges h w)) by reflexivity. f_equal. rewrite Rmult_0_l, !Rplus_0_r, Rminus_0_l. f_equal.
  apply rsum_ext. intros [i j] _. cbn [fst snd]. rewrite ising_field. reflexivity.
Qed.
Lemma potts_weight h w C la sigma mu p x : In x (states (h * w) C) ->
  exp (potts_ll_forward h w C (potts_w la) (potts_w la) (potts_b h w sigma mu (d_field p)) x) = colours (d_field p) h w la mu sigma x.
Proof.
  intros Hx. unfold potts_ll_forward, colours. rewrite potts_init_energy by (apply unflat_legal; exact Hx). f_equal. change (site w x) with (unflat w x). f_equal.
  apply rsum_ext. intros [i j] _. cbn [fst snd]. apply potts_field.
Qed.
Lemma potts_both h w C wh wv b x : potts_ll_value_and_grad h w C wh wv b x = potts_ll_forward h w C wh wv b x.
Proof. unfold potts_ll_value_and_grad, potts_ll_forward. unfold potts_forward. reflexivity. Qed.

(** ** Hidden chains *)
Lemma rows_map l k : forall x, length x = (l * k)%nat -> rows_of l k x = map (fun t => map (fun i => nth (t * k + i) x 0%nat) (seq 0 k)) (seq 0 l).
Proof.
  induction l as [|l IH]; intros x Hx; [reflexivity|]. cbn [rows_of seq map]. f_equal.
  - rewrite (list_as_map (firstn k x) k) by (rewrite firstn_length; lia). apply map_ext_in. intros i Hi. apply in_seq in Hi. cbn [Nat.mul Nat.add].
    rewrite <- (firstn_skipn k x) at 2. rewrite app_nth1 by (rewrite firstn_length; lia). reflexivity.
  - rewrite IH by (rewrite skipn_length; lia). rewrite <- seq_shift, map_map. apply map_ext_in. intros t Ht. apply map_ext_in. intros i Hi. apply in_seq in Hi.
    rewrite <- (firstn_skipn k x) at 2. rewrite app_nth2 by (rewrite firstn_length; lia). f_equal. rewrite firstn_length. lia.
Qed.
Lemma rows_in l k C x : In x (states (l * k) C) -> In (rows_of l k x) (lists_over (states k C) l).
Proof.
  intros Hx. apply in_states in Hx. destruct Hx as [Hl Hf]. rewrite (rows_map l k x Hl). apply in_lists_over. split; [rewrite map_length, seq_length; reflexivity|].
  apply Forall_forall. intros r Hr. apply in_map_iff in Hr. destruct Hr as (t & <- & Ht). apply in_seq in Ht. apply in_states. split; [rewrite map_length, seq_length; reflexivity|].
  apply Forall_forall. intros v Hv. apply in_map_iff in Hv. destruct Hv as (i & <- & Hi). apply in_seq in Hi. rewrite Forall_forall in Hf. apply Hf, nth_In. nia.
Qed.
Lemma dot_seq (g : nat -> R) k : forall s (row : list nat), Forall (fun v => (v < 2)%nat) row ->
  rsum (combine row (map g (seq s k))) (fun xw => INR (fst xw) * snd xw) = rsum (seq s k) (fun i => if Nat.eqb (nth (i - s) row 0%nat) 1 then g i else 0).
Proof.
  induction k as [|k IH]; intros s row H; [destruct row; reflexivity|]. cbn [seq map]. destruct row as [|v row].
  - cbn [combine]. rewrite (rsum_const0 (s :: seq (S s) k)); [reflexivity|]. intros i _. destruct (i - s)%nat; reflexivity.
  - inversion H; subst. cbn [combine rsum]. cbn [fst snd]. rewrite IH by assumption. rewrite Nat.sub_diag. cbn [nth]. f_equal.
    + destruct (digit _ H2) as [-> | ->]; cbn [Nat.eqb INR]; ring.
    + apply rsum_ext. intros i Hi. apply in_seq in Hi. replace (i - s)%nat with (S (i - S s)) by lia. reflexivity.
Qed.
Lemma nth_digits {C} (path : list (list nat)) t : Forall (Forall (fun v => (v < C)%nat)) path -> Forall (fun v => (v < C)%nat) (nth t path []).
Proof. intros H. destruct (Nat.lt_ge_cases t (length path)) as [L|L]; [rewrite Forall_forall in H; apply H, nth_In, L|rewrite nth_overflow by exact L; constructor]. Qed.
Lemma fhmm_bin_weight l k sigma alpha beta p x : In x (states (l * k) 2) -> (0 < l)%nat -> 0 < alpha < 1 -> 0 < beta < 1 -> Forall (Forall (fun v => (v < 2)%nat)) (d_path p) ->
  let w := map (fun i => d_w p i 0%nat) (seq 0 k) in
  exp (FHMM.bin_forward alpha beta sigma (d_b p) w (bin_obs l sigma w p) (rows_of l k x)) = paths 2 l k sigma alpha beta p x.
Proof.
  intros Hx Hl Ha Hb Hp w. rewrite (bin_forward_joint alpha beta sigma (d_b p) w (bin_obs l sigma w p) k l) by (auto using rows_in).
  unfold paths, hidden. cbn [Nat.eqb]. assert (Hlen : length x = (l * k)%nat) by (apply in_states in Hx; apply Hx). rewrite (rows_map l k x Hlen). f_equal.
  unfold bin_obs. rewrite combine_map2, rprod_map. apply rprod_ext. intros t Ht. apply in_seq in Ht. cbn [fst snd]. f_equal.
  assert (E1 : rsum (combine (nth t (d_path p) []) w) (fun xw => INR (fst xw) * snd xw) = rsum (seq 0 k) (fun i => if Nat.eqb (nth i (nth t (d_path p) []) 0%nat) 1 then d_w p i 0%nat else 0)).
  { unfold w. rewrite (dot_seq (fun i => d_w p i 0%nat) k 0) by (apply (@nth_digits 2), Hp). apply rsum_ext. intros i _. rewrite Nat.sub_0_r. reflexivity. }
  assert (E2 : rsum (combine (map (fun i => nth (t * k + i) x 0%nat) (seq 0 k)) w) (fun xw => INR (fst xw) * snd xw) = rsum (seq 0 k) (fun i => if Nat.eqb (nth (t * k + i) x 0%nat) 1 then d_w p i 0%nat else 0)).
  { unfold w. rewrite (dot_seq (fun i => d_w p i 0%nat) k 0).
    - apply rsum_ext. intros i Hi. apply in_seq in Hi. rewrite Nat.sub_0_r, (nth_indep _ 0%nat (nth (t * k + 0) x 0%nat)) by (rewrite map_length, seq_length; lia).
      rewrite (map_nth (fun i => nth (t * k + i) x 0%nat)), seq_nth by lia. reflexivity.
    - apply in_states in Hx. destruct Hx as [_ Hf]. apply Forall_forall. intros v Hv. apply in_map_iff in Hv. destruct Hv as (i & <- & Hi). apply in_seq in Hi.
      rewrite Forall_forall in Hf. apply Hf, nth_In. nia. }
  rewrite E1, E2. unfold observed, bin_level. f_equal. f_equal. f_equal. ring.
Qed.

Definition cat_stay (C : nat) (beta : R) : R := eff_stay C beta.
Lemma hot_level (C k : nat) (p : draws) (f : nat -> nat) : (1 < C)%nat -> (forall i, (i < k)%nat -> (f i < C)%nat) ->
  rsum (seq 0 k) (fun i => rsum (seq 0 C) (fun c => INR (FHMM.hotn (f i) c) * d_w p i c)) = rsum (seq 0 k) (fun i => d_w p i (f i)).
Proof. intros HC H. apply rsum_ext. intros i Hi. apply in_seq in Hi. apply (hotn_sum C HC (f i) (d_w p i)). apply H. lia. Qed.
Lemma first_law_pos C alpha p c : (2 <= C)%nat -> 0 < alpha < 1 -> (forall c, 0 < d_alpha p c) -> 0 < first_law C alpha p c.
Proof.
  intros HC Ha Hp. unfold first_law. destruct (Nat.eqb c 0); [lra|]. apply Rmult_lt_0_compat; [lra|]. apply Rdiv_lt_0_compat; [apply Hp|].
  destruct C as [|[|C]]; try lia. replace (S (S C) - 1)%nat with (S C) by lia. apply rsum_pos; [cbn; discriminate|intros; apply Hp].
Qed.
Lemma first_law_init C alpha p c : FHMM.init_alpha C alpha (d_alpha p) c = first_law C alpha p c.
Proof. unfold first_law, FHMM.init_alpha. destruct c; cbn [Nat.eqb]; [reflexivity|]. unfold Rdiv. ring. Qed.
Lemma path_prob_ext p0 p0' tr rows : (forall v, p0 v = p0' v) -> path_prob p0 tr rows = path_prob p0' tr rows.
Proof. intros H. unfold path_prob. destruct rows; [reflexivity|]. f_equal. apply rprod_ext. auto. Qed.
Lemma fhmm_cat_weight C l k sigma alpha beta p x : (2 <= C)%nat -> C <> 2%nat -> In x (states (l * k) C) -> (0 < l)%nat -> 0 < alpha < 1 -> 0 < beta < 1 ->
  (forall c, 0 < d_alpha p c) -> Forall (Forall (fun v => (v < C)%nat)) (d_path p) ->
  exp (FHMM.cat_forward C (fun c => ln (FHMM.init_alpha C alpha (d_alpha p) c)) beta sigma (d_b p) (d_w p) k (cat_obs l k C sigma p) (rows_of l k x))
  = row_total C beta ^ (k * (l - 1)) * paths C l k sigma alpha (cat_stay C beta) p x.
Proof.
  intros HC N2 Hx Hl Ha Hb Hp Hpath. rewrite (cat_forward_joint C ltac:(lia) _ beta sigma (d_b p) (d_w p) (cat_obs l k C sigma p) k l) by (auto using rows_in; lra).
  unfold paths. destruct (Nat.eqb_spec C 2) as [|_]; [contradiction|]. unfold hidden. rewrite Rmult_assoc. f_equal.
  assert (Hlen : length x = (l * k)%nat) by (apply in_states in Hx; apply Hx). rewrite (rows_map l k x Hlen). f_equal.
  - apply path_prob_ext. intros v. rewrite first_law_init. apply exp_ln, first_law_pos; auto.
  - unfold cat_obs. rewrite combine_map2, rprod_map. apply rprod_ext. intros t Ht. apply in_seq in Ht. cbn [fst snd]. f_equal. f_equal. f_equal. f_equal.
    unfold observed, cat_level. rewrite (hot_level C k p (fun i => nth i (nth t (d_path p) []) 0%nat) ltac:(lia)).
    + assert (E : rsum (seq 0 k) (fun i => d_w p i (nth i (map (fun i0 => nth (t * k + i0) x 0%nat) (seq 0 k)) 0%nat)) = rsum (seq 0 k) (fun i => d_w p i (nth (t * k + i) x 0%nat))).
      { apply rsum_ext. intros i Hi. apply in_seq in Hi. rewrite (nth_indep _ 0%nat (nth (t * k + 0) x 0%nat)) by (rewrite map_length, seq_length; lia).
        rewrite (map_nth (fun i => nth (t * k + i) x 0%nat)), seq_nth by lia. reflexivity. }
      rewrite E. ring.
    + intros i Hi. pose proof (@nth_digits C (d_path p) t Hpath) as D. destruct (Nat.lt_ge_cases i (length (nth t (d_path p) []))) as [L|L].
      * rewrite Forall_forall in D. apply D, nth_In, L.
      * rewrite nth_overflow by exact L. lia.
Qed.

(** ** From the section to the target *)
Lemma as_real_setting m k : is_number m k -> as_real (look k m) = Some (setting m k).
Proof. intros (z & s & [H|H]); unfold setting; rewrite H; reflexivity. Qed.
Lemma cat_stay_effective C beta : cat_stay C beta = effective_stay C beta.
Proof. unfold cat_stay, eff_stay, row_total, effective_stay, FHMM.trans_table. rewrite Nat.eqb_refl. reflexivity. Qed.

Lemma run_target_some name m p grad k : classical name -> well_formed name m ->
  exists T, run_target name m p grad k = Some T /\ t_dim T = fold_right Nat.mul 1%nat (shape m) /\ t_C T = categories m /\ t_grad T = grad /\ t_mask T = None /\
    (drawn m p -> faithful name m k -> forall x, In x (states (t_dim T) (t_C T)) -> exp (t_fw T x) = weight name m p x) /\
    (name = "ising" -> on_ints k = true -> Rabs (setting m "lambdaa") < 1 -> forall x, In x (states (t_dim T) (t_C T)) ->
       exists h w, shape m = [h; w] /\ exp (t_fw T x) = spins (d_field p) h w 0 (setting m "mu") (setting m "init_sigma") x) /\
    (name = "fhmm" -> categories m <> 2%nat -> drawn m p -> exists l kk, shape m = [l; kk] /\ exists c, 0 < c /\ forall x, In x (states (t_dim T) (t_C T)) ->
       exp (t_fw T x) = c * paths (categories m) l kk (setting m "sigma") (setting m "alpha") (effective_stay (categories m) (setting m "beta")) p x).
Proof.
  intros Hc (Hn & (C & HC & HC2) & (sh & Hsh) & Hb & Hi & H2 & Hd & Hf).
  assert (ES : shape_of m = Some (shape m)) by (unfold shape_of, shape; rewrite Hsh; reflexivity).
  assert (EC : as_nat (look "num_categories" m) = Some (categories m)) by (unfold categories; rewrite HC; reflexivity).
  assert (GC : (2 <= categories m)%nat) by (unfold categories; rewrite HC; lia).
  unfold run_target, run_fw. rewrite ES, EC. cbv zeta. unfold faithful, weight. cbv zeta. unfold sites.
  destruct Hc as [<-|[<-|[<-|[<-|[<-|[]]]]]]; cbn [String.eqb Ascii.eqb Bool.eqb orb]; unfold needed in Hn; cbn [String.eqb Ascii.eqb Bool.eqb orb] in Hn.
  - inversion Hn as [|? ? N1 _]; subst. rewrite (as_real_setting m "init_sigma" N1). eexists. split; [reflexivity|]. cbn [t_dim t_C t_grad t_mask t_fw].
    split; [reflexivity|]. split; [reflexivity|]. split; [reflexivity|]. split; [reflexivity|]. split; [|split; discriminate].
    intros _ _ x Hx. rewrite (Hb eq_refl) in Hx. destruct (match shape m with [a; b] => (a, b) | _ => (0, 0)%nat end). apply bern_weight. exact Hx.
  - inversion Hn as [|? ? N1 _]; subst. rewrite (as_real_setting m "init_sigma" N1). eexists. split; [reflexivity|]. cbn [t_dim t_C t_grad t_mask t_fw].
    split; [reflexivity|]. split; [reflexivity|]. split; [reflexivity|]. split; [reflexivity|]. split; [|split; discriminate].
    intros _ _ x Hx. destruct (match shape m with [a; b] => (a, b) | _ => (0, 0)%nat end). apply cat_weight. exact Hx.
  - specialize (H2 (or_introl eq_refl)). inversion Hn as [|? ? N1 Hn']; subst. inversion Hn' as [|? ? N2 Hn'']; subst. inversion Hn'' as [|? ? N3 _]; subst.
    rewrite (as_real_setting m "init_sigma" N3), (as_real_setting m "lambdaa" N1), (as_real_setting m "mu" N2).
    destruct (shape m) as [|h [|w [|? ?]]] eqn:Em; try discriminate H2. eexists. split; [reflexivity|]. cbn [t_dim t_C t_grad t_mask t_fw].
    split; [reflexivity|]. split; [reflexivity|]. split; [reflexivity|]. split; [reflexivity|].
    assert (Ed : fold_right Nat.mul 1%nat [h; w] = (h * w)%nat) by (cbn; lia). rewrite Ed, (Hi eq_refl). split; [|split; [|discriminate]].
    + intros _ [F _] x Hx. specialize (F eq_refl).
      destruct k; cbn [on_ints]; try (apply ising_weight_float; exact Hx); apply ising_weight_int; assumption.
    + intros _ Hk Hl x Hx. exists h, w. split; [reflexivity|]. rewrite Hk. apply ising_weight_lost; assumption.
  - specialize (H2 (or_intror (or_introl eq_refl))). inversion Hn as [|? ? N1 Hn']; subst. inversion Hn' as [|? ? N2 Hn'']; subst. inversion Hn'' as [|? ? N3 _]; subst.
    rewrite (as_real_setting m "init_sigma" N3), (as_real_setting m "lambdaa" N1), (as_real_setting m "mu" N2).
    destruct (shape m) as [|h [|w [|? ?]]] eqn:Em; try discriminate H2. eexists. split; [reflexivity|]. cbn [t_dim t_C t_grad t_mask t_fw].
    split; [reflexivity|]. split; [reflexivity|]. split; [reflexivity|]. split; [reflexivity|].
    assert (Ed : fold_right Nat.mul 1%nat [h; w] = (h * w)%nat) by (cbn; lia). rewrite Ed. split; [|split; discriminate].
    intros _ _ x Hx. destruct (on_ints k); rewrite ?potts_both; apply (potts_weight h w (categories m)); exact Hx.
  - specialize (H2 (or_intror (or_intror eq_refl))). specialize (Hf eq_refl). destruct Hf as [Ha Hbt].
    inversion Hn as [|? ? N1 Hn']; subst. inversion Hn' as [|? ? N2 Hn'']; subst. inversion Hn'' as [|? ? N3 _]; subst.
    rewrite (as_real_setting m "sigma" N1), (as_real_setting m "alpha" N2), (as_real_setting m "beta" N3).
    destruct (shape m) as [|l [|kk [|? ?]]] eqn:Em; try discriminate H2.
    assert (Ed : fold_right Nat.mul 1%nat [l; kk] = (l * kk)%nat) by (cbn; lia). rewrite Ed in *. assert (Hl : (0 < l)%nat) by nia.
    destruct (Nat.eqb_spec (categories m) 2) as [E2|E2]; (eexists; split; [reflexivity|]); cbn [t_dim t_C t_grad t_mask t_fw]; rewrite ?Ed;
      (split; [reflexivity|]); (split; [reflexivity|]); (split; [reflexivity|]); (split; [reflexivity|]); (split; [|split; [discriminate|]]).
    + intros [_ Hp] _ x Hx. rewrite E2 in Hx, Hp |- *. apply fhmm_bin_weight; assumption.
    + intros _ N. contradiction.
    + intros _ [_ F]. exfalso. apply E2, F. reflexivity.
    + intros _ _ [Hal Hp]. exists l, kk. split; [reflexivity|]. exists (row_total (categories m) (setting m "beta") ^ (kk * (l - 1))). split.
      * apply pow_lt. unfold row_total. pose proof (diag_pos (categories m) ltac:(lia) (setting m "beta") ltac:(lra)). lra.
      * intros x Hx. rewrite fhmm_cat_weight by (try assumption; lia). rewrite cat_stay_effective. reflexivity.
Qed.

(** ** Likelihood ratios *)
Lemma run_target_ratios name m p grad k T : classical name -> well_formed name m -> run_target name m p grad k = Some T ->
  (name <> "bernoulli" -> t_sig T = None) /\
  (name = "bernoulli" -> t_sig T = Some bernoulli_sig /\
     forall x i, In x (states (t_dim T) (t_C T)) -> (i < length x)%nat -> exp (t_lr T x i) = weight name m p (upd i (1 - nth i x 0)%nat x) / weight name m p x).
Proof.
  intros Hc (Hn & (C & HC & HC2) & (sh & Hsh) & Hb & _) Hr.
  assert (ES : shape_of m = Some (shape m)) by (unfold shape_of, shape; rewrite Hsh; reflexivity).
  assert (EC : as_nat (look "num_categories" m) = Some (categories m)) by (unfold categories; rewrite HC; reflexivity).
  unfold run_target in Hr. destruct (run_fw name m p k) as [fw|]; [|discriminate]. rewrite ES, EC in Hr. injection Hr as <-. cbn [t_sig t_dim t_C t_lr]. split.
  - intros N. apply String.eqb_neq in N. rewrite N. reflexivity.
  - intros ->. cbn [String.eqb Ascii.eqb Bool.eqb]. split; [reflexivity|]. intros x i Hx Hi. rewrite (Hb eq_refl) in Hx.
    unfold needed in Hn. cbn [String.eqb Ascii.eqb Bool.eqb orb] in Hn. inversion Hn as [|? ? N1 _]; subst. rewrite (as_real_setting m "init_sigma" N1).
    unfold weight. cbn [String.eqb Ascii.eqb Bool.eqb orb]. destruct (match shape m with [a; b] => (a, b) | _ => (0, 0)%nat end). cbv zeta.
    set (d := sites (shape m)) in *. pose proof Hx as Hx'. apply in_states in Hx'. destruct Hx' as [Hl Hf].
    assert (Hv : (nth i x 0 < 2)%nat) by (rewrite Forall_forall in Hf; apply Hf, nth_In; exact Hi).
    assert (Lp : length (bern_params d (setting m "init_sigma") p) = d) by (unfold bern_params; rewrite map_length, seq_length; reflexivity).
    assert (Hy : In (upd i (1 - nth i x 0)%nat x) (states d 2)).
    { apply in_states. split; [rewrite upd_length; exact Hl|]. apply Forall_forall. intros v Hin. apply In_nth with (d := 0%nat) in Hin. destruct Hin as (j & Hj & <-).
      rewrite upd_length in Hj. destruct (Nat.eq_dec j i) as [->|Nj]; [rewrite nth_upd_eq by exact Hi; lia|rewrite nth_upd_neq by congruence]. rewrite Forall_forall in Hf. apply Hf, nth_In; exact Hj. }
    rewrite bern_logratio_exact by (rewrite ?Lp; assumption).
    rewrite <- !(bern_weight d) by assumption. unfold Rminus, Rdiv. rewrite exp_plus, exp_Ropp. reflexivity.
Qed.
