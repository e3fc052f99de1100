(** Proofs about informed proposals, DLMC on product energies, and the direction of the adaptation. *)
From Coq Require Import String Reals List Lra Lia Arith ZArith.
From Verif.Base Require Import RSum Cube Dist XFloat.
From Verif.Spec Require Import ProposalSpec.
From Verif.Model Require Import MathUtil RandomWalk LocallyBalanced GWG PathAux Langevin.
From Verif.Proof Require Import MathUtilProof RandomWalkProof GWGProof PathAuxProof LangevinProof LangevinRows.
Import ListNotations.
Local Open Scope R_scope.

Lemma softmax_entry (h : nat -> R) n i : (i < n)%nat ->
  exp (nth i (log_softmax (map h (seq 0 n))) 0) = exp (h i) / rsum (seq 0 n) (fun j => exp (h j)).
Proof.
  intros Hi. rewrite nth_log_softmax by (rewrite map_length, seq_length; auto). unfold Rminus. rewrite exp_plus, exp_Ropp.
  rewrite exp_ln by (apply sumexp_pos; destruct n; [lia|discriminate]). rewrite sumexp_map_seq, nth_map_seq by auto. reflexivity.
Qed.

Lemma Rmin_scal c u v : 0 < c -> Rmin (c * u) (c * v) = c * Rmin u v.
Proof. intros H. unfold Rmin. destruct (Rle_dec u v), (Rle_dec (c * u) (c * v)); auto; exfalso; nra. Qed.

Lemma bit_cases v : (v < 2)%nat -> v = 0%nat \/ v = 1%nat. Proof. lia. Qed.

Lemma state_bit d C x i : In x (states d C) -> (i < d)%nat -> (nth i x 0 < C)%nat /\ length x = d.
Proof. intros Hx Hi. apply in_states in Hx. destruct Hx as [<- HF]. split; auto. rewrite Forall_forall in HF. apply HF, nth_In; auto. Qed.

Lemma slope_bin fw grad d x i : first_order fw grad d -> In x (states d 2) -> (i < d)%nat ->
  (1 - 2 * INR (nth i x 0%nat)) * grad x i = fw (upd i (1 - nth i x 0)%nat x) - fw x.
Proof.
  intros H Hx Hi. destruct (state_bit _ _ _ _ Hx Hi) as [Hb _]. rewrite (H x i (1 - nth i x 0)%nat Hx Hi ltac:(lia)).
  f_equal. destruct (bit_cases _ Hb) as [-> | ->]; simpl; ring.
Qed.

Section Weighted.
  Variables (fw : list nat -> R) (grad : list nat -> nat -> R) (g wf : R -> R).
  Hypothesis Hg : log_of g wf.

  Lemma gwg_dist_ratio d x i : first_order fw grad d -> In x (states d 2) -> (i < d)%nat ->
    let r := fun j => g (ratio fw x (upd j (1 - nth j x 0)%nat x)) in
    exp (nth i (gwg_dist_at wf grad None x) 0) = r i / rsum (seq 0 d) r.
  Proof.
    intros Ho Hx Hi r. destruct (state_bit _ _ _ _ Hx Hi) as [_ Hl]. unfold gwg_dist_at. rewrite Hl, softmax_entry by auto. cbn [mask_score].
    assert (E : forall j, (j < d)%nat -> exp (wf ((1 - 2 * INR (nth j x 0%nat)) * grad x j)) = r j).
    { intros j Hj. rewrite (slope_bin fw grad d) by auto. apply Hg. }
    rewrite E by auto. f_equal. apply rsum_ext. intros j Hj. apply in_seq in Hj. apply E. lia.
  Qed.

  Lemma gwg_mask_odds d m x i j : first_order fw grad d -> In x (states d 2) -> (i < d)%nat -> (j < d)%nat -> m i = 1 -> m j = 0 ->
    exp (nth j (gwg_dist_at wf grad (Some m) x) 0) * g (ratio fw x (upd i (1 - nth i x 0)%nat x))
    = exp (nth i (gwg_dist_at wf grad (Some m) x) 0) * exp (- 10 ^ 9).
  Proof.
    intros Ho Hx Hi Hj Mi Mj. destruct (state_bit _ _ _ _ Hx Hi) as [_ Hl]. unfold gwg_dist_at. rewrite Hl, !softmax_entry by auto. cbn [mask_score]. rewrite Mi, Mj.
    rewrite (slope_bin fw grad d) with (i := i) by auto. unfold ratio. rewrite <- (Hg (fw (upd i (1 - nth i x 0)%nat x) - fw x)).
    set (Z := rsum _ _). replace (_ * 1 + - 10 ^ 9 * (1 - 1)) with (wf (fw (upd i (1 - nth i x 0)%nat x) - fw x)) by ring.
    replace (_ * 0 + - 10 ^ 9 * (1 - 0)) with (- 10 ^ 9) by ring. unfold Rdiv. ring.
  Qed.

  Lemma paf_dist_ratio d x i : first_order fw grad d -> In x (states d 2) -> (i < d)%nat ->
    let r := fun j => g (ratio fw x (upd j (1 - nth j x 0)%nat x)) in
    exp (nth i (paf_dist wf (paf_lr_grad_bin grad) None x) 0) = r i / rsum (seq 0 d) r.
  Proof. intros Ho Hx Hi. exact (gwg_dist_ratio d x i Ho Hx Hi). Qed.

  Lemma lr_cat_ratio d C x i c : first_order_onehot fw grad d C -> In x (states d C) -> (i < d)%nat -> (c < C)%nat ->
    paf_lr_grad_cat grad C x (i * C + c)%nat = fw (upd i c x) - fw x.
  Proof.
    intros Ho Hx Hi Hc. unfold paf_lr_grad_cat. rewrite Nat.div_add_l, Nat.div_small, Nat.add_0_r by lia. symmetry. apply Ho; auto.
  Qed.

  Lemma idx_lt d C i c : (i < d)%nat -> (c < C)%nat -> (i * C + c < d * C)%nat.
  Proof. intros Hi Hc. assert ((i + 1) * C <= d * C)%nat by (apply Nat.mul_le_mono_r; lia). lia. Qed.
  Lemma idx_mod C i c : (c < C)%nat -> ((i * C + c) mod C = c)%nat.
  Proof. intros Hc. rewrite Nat.add_comm, Nat.mod_add by lia. apply Nat.mod_small; auto. Qed.
  Lemma idx_div C i c : (c < C)%nat -> ((i * C + c) / C = i)%nat.
  Proof. intros Hc. rewrite Nat.div_add_l, Nat.div_small by lia. lia. Qed.

  Lemma cgwg_odds d C x i c i' c' : first_order_onehot fw grad d C -> In x (states d C) -> (i < d)%nat -> (c < C)%nat -> (i' < d)%nat -> (c' < C)%nat ->
    c <> nth i x 0%nat -> c' <> nth i' x 0%nat ->
    exp (nth (i * C + c) (cgwg_dist_at wf grad C x) 0) * g (ratio fw x (upd i' c' x))
    = exp (nth (i' * C + c') (cgwg_dist_at wf grad C x) 0) * g (ratio fw x (upd i c x)).
  Proof.
    intros Ho Hx Hi Hc Hi' Hc' Hn Hn'. destruct (state_bit _ _ _ _ Hx Hi) as [_ Hl]. unfold cgwg_dist_at. cbv zeta. rewrite Hl, !softmax_entry by (apply idx_lt; auto).
    rewrite !idx_mod, !idx_div by auto.
    destruct (Nat.eqb_spec c (nth i x 0%nat)); [contradiction|]. destruct (Nat.eqb_spec c' (nth i' x 0%nat)); [contradiction|].
    rewrite !Rminus_0_r. rewrite <- (Ho x i c), <- (Ho x i' c') by auto. rewrite !Hg. unfold ratio, Rdiv. ring.
  Qed.

  (** The current category is practically excluded: its odds against a move of ratio 1 or so are e^-1e9. *)
  Lemma cgwg_stay_odds d C x i i' c' : first_order_onehot fw grad d C -> In x (states d C) -> (i < d)%nat -> (i' < d)%nat -> (c' < C)%nat -> c' <> nth i' x 0%nat ->
    exp (nth (i * C + nth i x 0%nat) (cgwg_dist_at wf grad C x) 0) * g (ratio fw x (upd i' c' x))
    = exp (nth (i' * C + c') (cgwg_dist_at wf grad C x) 0) * (g 1 * exp (- 10 ^ 9)).
  Proof.
    intros Ho Hx Hi Hi' Hc' Hn'. destruct (state_bit _ _ _ _ Hx Hi) as [Hb Hl]. unfold cgwg_dist_at. cbv zeta. rewrite Hl, !softmax_entry by (apply idx_lt; auto).
    rewrite !idx_mod, !idx_div by auto. rewrite Nat.eqb_refl. destruct (Nat.eqb_spec c' (nth i' x 0%nat)); [contradiction|].
    rewrite Rminus_0_r, <- (Ho x i' c') by auto. rewrite Rminus_diag_eq with (r1 := grad x (i * C + nth i x 0)%nat) by auto.
    unfold Rminus at 1. rewrite exp_plus, !Hg, exp_0. unfold ratio, Rdiv. ring.
  Qed.

  Lemma pafc_odds d C x i c i' c' : first_order_onehot fw grad d C -> In x (states d C) -> (i < d)%nat -> (c < C)%nat -> (i' < d)%nat -> (c' < C)%nat ->
    c <> nth i x 0%nat -> c' <> nth i' x 0%nat ->
    exp (nth (i * C + c) (pafc_dist wf (paf_lr_grad_cat grad C) None C x) 0) * g (ratio fw x (upd i' c' x))
    = exp (nth (i' * C + c') (pafc_dist wf (paf_lr_grad_cat grad C) None C x) 0) * g (ratio fw x (upd i c x)).
  Proof.
    intros Ho Hx Hi Hc Hi' Hc' Hn Hn'. destruct (state_bit _ _ _ _ Hx Hi) as [_ Hl]. unfold pafc_dist. cbv zeta. rewrite Hl, !softmax_entry by (apply idx_lt; auto).
    rewrite !idx_mod, !idx_div by auto.
    destruct (Nat.eqb_spec c (nth i x 0%nat)); [contradiction|]. destruct (Nat.eqb_spec c' (nth i' x 0%nat)); [contradiction|]. cbn [mask_score].
    rewrite !(lr_cat_ratio d) by auto. rewrite !Hg. unfold ratio, Rdiv. ring.
  Qed.

  Lemma dmala_ratio d lt x i : first_order fw grad d -> In x (states d 2) -> (i < d)%nat ->
    let t := exp lt * g (ratio fw x (upd i (1 - nth i x 0)%nat x)) in
    exists ps, dmala_ps lt wf (paf_lr_grad_bin grad) x = Some ps /\ nth i ps 0 = t / (1 + t).
  Proof.
    intros Ho Hx Hi t. destruct (state_bit _ _ _ _ Hx Hi) as [_ Hl]. eexists. split; [reflexivity|]. rewrite Hl, nth_map_seq by auto.
    rewrite dmala_p_eq. unfold paf_lr_grad_bin. rewrite (slope_bin fw grad d) by auto. rewrite Hg. reflexivity.
  Qed.

  Lemma dmala_cat_ratio d C lt x i c : first_order_onehot fw grad d C -> In x (states d C) -> (i < d)%nat -> (c < C)%nat ->
    let wt := fun c => if Nat.eqb c (nth i x 0%nat) then 1 else exp lt * g (ratio fw x (upd i c x)) in
    exists row, dmala_row lt wf (paf_lr_grad_cat grad C) C x i = Some row /\ exp (nth c row 0) = wt c / rsum (seq 0 C) wt.
  Proof.
    intros Ho Hx Hi Hc wt. eexists. split; [reflexivity|]. rewrite softmax_entry by auto.
    assert (E : forall c, (c < C)%nat -> exp ((lt + wf (paf_lr_grad_cat grad C x (i * C + c)%nat)) * (1 - (if Nat.eqb c (nth i x 0%nat) then 1 else 0))) = wt c).
    { intros c' Hc'. unfold wt. rewrite (lr_cat_ratio d) by auto. destruct (Nat.eqb c' _).
      - replace (1 - 1) with 0 by ring. rewrite Rmult_0_r, exp_0. reflexivity.
      - replace (1 - 0) with 1 by ring. rewrite Rmult_1_r, exp_plus, Hg. reflexivity. }
    rewrite E by auto. f_equal. apply rsum_ext. intros c' Hc'. apply in_seq in Hc'. apply E. lia.
  Qed.

  Lemma dlmc_ps_nth solver d lt (lr : list nat -> nat -> R) x i p : known_solver solver -> In x (states d 2) -> (i < d)%nat ->
    dlmc_ps solver lt wf lr x = Some p -> dlmc_p solver lt (wf (lr x i)) (lr x i) = Some (nth i p 0).
  Proof.
    intros Hk Hx Hi. destruct (state_bit _ _ _ _ Hx Hi) as [_ Hl]. unfold dlmc_ps. rewrite Hl.
    set (q := fun i => match dlmc_p solver lt (wf (lr x i)) (lr x i) with Some p => p | None => 0 end).
    assert (Q : forall i, dlmc_p solver lt (wf (lr x i)) (lr x i) = Some (q i)).
    { intros k. destruct (dlmc_p_ok solver lt (wf (lr x k)) (lr x k) Hk) as (v & Hv & _). unfold q. rewrite Hv. reflexivity. }
    rewrite (all_some_map _ q) by (intros; apply Q). intros H. injection H as <-. rewrite nth_map_seq by auto. apply Q.
  Qed.

  Lemma dlmc_ratio d lt x i : first_order fw grad d -> In x (states d 2) -> (i < d)%nat ->
    let r := ratio fw x (upd i (1 - nth i x 0)%nat x) in
    let nu := r / (1 + r) in
    (exists ps, dlmc_ps "interpolate" lt wf (paf_lr_grad_bin grad) x = Some ps /\ nth i ps 0 = nu * (1 - exp (- (exp lt * g r / nu)))) /\
    (exists ps, dlmc_ps "euler_forward" lt wf (paf_lr_grad_bin grad) x = Some ps /\ nth i ps 0 = Rmin (exp lt * g r) nu).
  Proof.
    intros Ho Hx Hi r nu0.
    assert (Hnu : / (1 + exp (- paf_lr_grad_bin grad x i)) = nu0).
    { unfold nu0, r, ratio, paf_lr_grad_bin. rewrite (slope_bin fw grad d) by auto. set (u := _ - _). rewrite exp_Ropp. pose proof (exp_pos u). field. lra. }
    assert (Hr : exp (wf (paf_lr_grad_bin grad x i)) = g r).
    { unfold paf_lr_grad_bin. rewrite (slope_bin fw grad d) by auto. apply Hg. }
    split.
    - assert (K : known_solver "interpolate") by (left; auto). destruct (dlmc_ps_ok "interpolate" lt wf (paf_lr_grad_bin grad) d x K Hx) as (p & Hp & _).
      exists p. split; [exact Hp|]. pose proof (dlmc_ps_nth _ d lt _ x i p K Hx Hi Hp) as H. rewrite dlmc_p_interp in H. injection H as <-. rewrite Hnu, Hr. reflexivity.
    - assert (K : known_solver "euler_forward") by (right; auto). destruct (dlmc_ps_ok "euler_forward" lt wf (paf_lr_grad_bin grad) d x K Hx) as (p & Hp & _).
      exists p. split; [exact Hp|]. pose proof (dlmc_ps_nth _ d lt _ x i p K Hx Hi Hp) as H. rewrite dlmc_p_euler in H. injection H as <-. rewrite Hnu, Hr. reflexivity.
  Qed.

  (** ** DLMC on product energies *)
  Hypothesis Hb : balancing g.

  Lemma wf_odd t : exp (wf t) = exp t * exp (wf (- t)).
  Proof. rewrite !Hg, Hb by apply exp_pos. rewrite exp_Ropp. reflexivity. Qed.

  Lemma dlmc_detailed solver lt D p q : known_solver solver -> dlmc_p solver lt (wf D) D = Some p -> dlmc_p solver lt (wf (- D)) (- D) = Some q -> ln p = D + ln q.
  Proof.
    intros Hk Hp Hq. assert (0 < q) by (destruct (dlmc_p_ok solver lt (wf (- D)) (- D) Hk) as (v & Hv & Hr); rewrite Hv in Hq; injection Hq as ->; lra).
    assert (E : p = exp D * q).
    { pose proof (exp_pos D) as HD. pose proof (exp_pos lt) as Hlt. pose proof (exp_pos (wf (- D))) as Hw.
      destruct Hk as [-> | ->].
      - rewrite dlmc_p_interp in Hp, Hq. injection Hp as <-. injection Hq as <-. rewrite Ropp_involutive, (wf_odd D), exp_Ropp.
        replace (exp lt * (exp D * exp (wf (- D))) / / (1 + / exp D)) with (exp lt * exp (wf (- D)) / / (1 + exp D)) by (field; lra).
        set (e := exp (- _)). field. lra.
      - rewrite dlmc_p_euler in Hp, Hq. injection Hp as <-. injection Hq as <-. rewrite Ropp_involutive, (wf_odd D), exp_Ropp.
        rewrite <- Rmin_scal by lra. f_equal; [ring|field; lra]. }
    rewrite E, ln_mult, ln_exp by (auto; apply exp_pos). reflexivity.
  Qed.

  Lemma bern_ll_seq dg d ps flips : length ps = d -> length flips = d ->
    bern_ll dg ps flips = rsum (seq 0 d) (fun i => if nth i flips false then ln (nth i ps 0 + dg) else ln (1 - nth i ps 0 + dg)).
  Proof.
    intros H1 H2. unfold bern_ll. rewrite (rsum_nth _ (0, false)), combine_length, H1, H2, Nat.min_id. apply rsum_ext. intros i _.
    rewrite combine_nth by congruence. cbn [fst snd]. destruct (nth i flips false); ring.
  Qed.

  Lemma flip_bits_nth d flips x i : In x (states d 2) -> length flips = d -> (i < d)%nat ->
    nth i (flip_bits flips x) 0%nat = if nth i flips false then (1 - nth i x 0)%nat else nth i x 0%nat.
  Proof.
    intros Hx Hf Hi. destruct (state_bit _ _ _ _ Hx Hi) as [Hv Hl]. unfold flip_bits.
    set (h := fun p : bool * nat => _).
    rewrite (nth_indep _ 0%nat (h (false, 0%nat))) by (rewrite map_length, combine_length; lia). rewrite map_nth, combine_nth by congruence.
    unfold h. cbn [fst snd]. destruct (nth i flips false), (bit_cases _ Hv) as [-> | ->]; reflexivity.
  Qed.

  Lemma product_change a d C x i v : product_energy fw a d C -> In x (states d C) -> (i < d)%nat -> (v < C)%nat ->
    fw (upd i v x) - fw x = a i v - a i (nth i x 0%nat).
  Proof.
    intros Hp Hx Hi Hv. assert (Hu : In (upd i v x) (states d C)).
    { apply in_states in Hx. apply in_states. rewrite upd_length. split; [tauto|]. apply Forall_upd; tauto. }
    rewrite (Hp _ Hu), (Hp _ Hx), <- rsum_minus. destruct (state_bit _ _ _ _ Hx Hi) as [_ Hl].
    rewrite (rsum_single _ _ i); [|apply seq_NoDup|apply in_seq; lia|].
    - rewrite nth_upd_eq by lia. reflexivity.
    - intros j _ Hj. rewrite nth_upd_neq by auto. ring.
  Qed.

  Lemma dlmc_never_rejects solver a d lt lr x flips p q : known_solver solver -> product_energy fw a d 2 ->
    (forall x i, In x (states d 2) -> (i < d)%nat -> lr x i = fw (upd i (1 - nth i x 0)%nat x) - fw x) ->
    In x (states d 2) -> length flips = d -> dlmc_ps solver lt wf lr x = Some p -> dlmc_ps solver lt wf lr (flip_bits flips x) = Some q ->
    fw (flip_bits flips x) + bern_ll 0 q flips - fw x - bern_ll 0 p flips = 0.
  Proof.
    intros Hk Hp Hlr Hx Hf Ep Eq. set (y := flip_bits flips x) in *. assert (Hy : In y (states d 2)) by (apply flip_bits_states; auto).
    assert (Lp : length p = d) by (destruct (dlmc_ps_ok solver lt wf lr d x Hk Hx) as (p' & H & L & _); congruence).
    assert (Lq : length q = d) by (destruct (dlmc_ps_ok solver lt wf lr d y Hk Hy) as (p' & H & L & _); congruence).
    rewrite !(bern_ll_seq 0 d) by auto. rewrite (Hp _ Hy), (Hp _ Hx). rewrite <- rsum_plus, <- rsum_minus, <- rsum_minus.
    apply rsum_const0. intros i Hi. apply in_seq in Hi. assert (Hi' : (i < d)%nat) by lia.
    pose proof (dlmc_ps_nth solver d lt lr x i p Hk Hx Hi' Ep) as Np. pose proof (dlmc_ps_nth solver d lt lr y i q Hk Hy Hi' Eq) as Nq.
    destruct (state_bit _ _ _ _ Hx Hi') as [Hv _]. destruct (state_bit _ _ _ _ Hy Hi') as [Hw _].
    rewrite Hlr, (product_change a d 2) in Np by (auto; lia). rewrite Hlr, (product_change a d 2) in Nq by (auto; lia).
    assert (Yi : nth i y 0%nat = if nth i flips false then (1 - nth i x 0)%nat else nth i x 0%nat) by (apply (flip_bits_nth d); auto). rewrite Yi in *.
    destruct (nth i flips false).
    - set (D := a i (1 - nth i x 0)%nat - a i (nth i x 0%nat)) in *.
      replace (a i (1 - (1 - nth i x 0))%nat - a i (1 - nth i x 0)%nat) with (- D) in Nq by (unfold D; replace (1 - (1 - nth i x 0))%nat with (nth i x 0%nat) by lia; ring).
      rewrite !Rplus_0_r. rewrite (dlmc_detailed solver lt D _ _ Hk Np Nq). unfold D. ring.
    - rewrite Np in Nq. injection Nq as <-. ring.
  Qed.

  (** ** Categorical *)
  Lemma row_ll_seq rows y d : length rows = d -> length y = d ->
    row_ll rows y = rsum (seq 0 d) (fun i => nth (nth i y 0%nat) (log_softmax (nth i rows [])) 0).
  Proof.
    intros H1 H2. unfold row_ll. rewrite (rsum_nth _ ([], 0%nat)), combine_length, H1, H2, Nat.min_id. apply rsum_ext. intros i _.
    rewrite combine_nth by congruence. reflexivity.
  Qed.

  Lemma log_softmax_normal row : sumexp row = 1 -> log_softmax row = row.
  Proof. intros H. unfold log_softmax. rewrite H, ln_1. rewrite <- (map_id row) at 2. apply map_ext. intros v. ring. Qed.

  Lemma dlmc_cat_never_rejects a d C lt lr x y rx ry : (0 < C)%nat -> product_energy fw a d C ->
    (forall x i c, In x (states d C) -> (i < d)%nat -> (c < C)%nat -> lr x (i * C + c)%nat = fw (upd i c x) - fw x) ->
    In x (states d C) -> In y (states d C) ->
    (forall i c, (i < d)%nat -> (c < C)%nat -> / 10 ^ 12 <= exp (a i c) / rsum (seq 0 C) (fun c' => exp (a i c'))) ->
    all_some (map (dlmc_row "interpolate" lt wf lr C x) (seq 0 d)) = Some rx -> all_some (map (dlmc_row "interpolate" lt wf lr C y) (seq 0 d)) = Some ry ->
    fw y + row_ll ry x - fw x - row_ll rx y = 0.
  Proof.
    intros HC Hp Hlr Hx Hy Hmin Ex Ey.
    assert (Hlra : forall x i c, In x (states d C) -> (i < d)%nat -> (c < C)%nat -> lr x (i * C + c)%nat = a i c - a i (nth i x 0%nat)).
    { intros z i c Hz Hi Hc. rewrite Hlr by auto. apply (product_change a d C); auto. }
    assert (Hnu : forall z i c, In z (states d C) -> (i < d)%nat -> (c < C)%nat -> nu lr C z i c = exp (a i c) / rsum (seq 0 C) (fun c' => exp (a i c'))).
    { intros z i c Hz Hi Hc. unfold nu. rewrite Hlra by auto.
      rewrite (rsum_ext (seq 0 C) (fun c' => exp (lr z (i * C + c')%nat)) (fun c' => exp (a i c') * exp (- a i (nth i z 0%nat)))).
      2:{ intros c' Hc'. apply in_seq in Hc'. rewrite Hlra by (auto; lia). unfold Rminus. apply exp_plus. }
      rewrite rsum_scal_r. unfold Rminus. rewrite exp_plus. pose proof (exp_pos (- a i (nth i z 0%nat))).
      assert (0 < rsum (seq 0 C) (fun c' => exp (a i c'))) by (apply rsum_pos; [destruct C; [lia|discriminate]|intros; apply exp_pos]). field. lra. }
    assert (Rows : forall z r, In z (states d C) -> all_some (map (dlmc_row "interpolate" lt wf lr C z) (seq 0 d)) = Some r ->
       length r = d /\ forall i, (i < d)%nat -> dlmc_row "interpolate" lt wf lr C z i = Some (nth i r [])).
    { intros z r Hz E. set (q := fun i => match dlmc_row "interpolate" lt wf lr C z i with Some r => r | None => [] end).
      assert (Q : forall i, In i (seq 0 d) -> dlmc_row "interpolate" lt wf lr C z i = Some (q i)).
      { intros i Hi. unfold q. destruct (dlmc_row "interpolate" lt wf lr C z i) eqn:En; [reflexivity|]. exfalso.
        assert (In None (map (dlmc_row "interpolate" lt wf lr C z) (seq 0 d))) by (rewrite <- En; apply in_map; auto).
        clear - E H. revert r E. induction (map _ (seq 0 d)) as [|o l IH]; intros r E; [destruct H|]. cbn in E. destruct H as [-> |H]; [discriminate|].
        destruct o; [|discriminate]. destruct (all_some l) eqn:El; [|discriminate]. eapply IH; eauto. }
      rewrite (all_some_map _ q _ Q) in E. injection E as <-. split; [rewrite map_length, seq_length; auto|].
      intros i Hi. rewrite (nth_map_seq q d i []) by auto. apply Q, in_seq. lia. }
    destruct (Rows x rx Hx Ex) as [Lx Nx]. destruct (Rows y ry Hy Ey) as [Ly Ny].
    assert (Lxx : length x = d) by (apply in_states in Hx; tauto). assert (Lyy : length y = d) by (apply in_states in Hy; tauto).
    rewrite (row_ll_seq ry x d), (row_ll_seq rx y d) by auto. rewrite (Hp _ Hy), (Hp _ Hx), <- rsum_plus, <- rsum_minus, <- rsum_minus.
    apply rsum_const0. intros i Hi. apply in_seq in Hi. assert (Hi' : (i < d)%nat) by lia.
    destruct (state_bit _ _ _ _ Hx Hi') as [Hv _]. destruct (state_bit _ _ _ _ Hy Hi') as [Hw _].
    pose proof (Nx i Hi') as Rx. pose proof (Ny i Hi') as Ry.
    destruct (dlmc_row_law lt wf lr C x i _ Rx Hv ltac:(rewrite Hnu by auto; apply Hmin; auto)) as (_ & Sx & Mx & _).
    destruct (dlmc_row_law lt wf lr C y i _ Ry Hw ltac:(rewrite Hnu by auto; apply Hmin; auto)) as (_ & Sy & My & _).
    rewrite !log_softmax_normal by auto.
    destruct (Nat.eq_dec (nth i x 0%nat) (nth i y 0%nat)) as [He|He].
    - assert (E : dlmc_row "interpolate" lt wf lr C x i = dlmc_row "interpolate" lt wf lr C y i).
      { assert (L : forall c, In c (seq 0 C) -> lr x (i * C + c)%nat = lr y (i * C + c)%nat).
        { intros c Hc. apply in_seq in Hc. rewrite !Hlra by (auto; lia). rewrite He. reflexivity. }
        unfold dlmc_row. rewrite (map_ext_in _ _ _ L). rewrite He. cbv zeta.
        erewrite (map_ext_in (fun c => match dlmc_thr "interpolate" lt (wf (lr x (i * C + c)%nat)) _ with Some (Fin t) => Some t | _ => None end)); [reflexivity|].
        intros c Hc. cbv beta. rewrite (L c Hc). reflexivity. }
      rewrite Rx, Ry in E. injection E as E. rewrite E, He. ring.
    - pose proof (Mx _ Hw (fun e => He (eq_sym e))) as M1. pose proof (My _ Hv He) as M2. unfold dl_move in M1, M2. rewrite !Hnu in M1, M2 by auto. rewrite Hlra in M1, M2 by auto.
      set (xi := nth i x 0%nat) in *. set (yi := nth i y 0%nat) in *. set (Z := rsum (seq 0 C) (fun c' => exp (a i c'))) in *.
      assert (HZ : 0 < Z) by (apply rsum_pos; [destruct C; [lia|discriminate]|intros; apply exp_pos]).
      set (D := a i yi - a i xi) in *. replace (a i xi - a i yi) with (- D) in M2 by (unfold D; ring).
      assert (F : exp (nth yi (nth i rx []) 0) = exp D * exp (nth xi (nth i ry []) 0)).
      { rewrite M1, M2, (wf_odd D). assert (EZ : exp (a i yi) / Z = exp D * (exp (a i xi) / Z)).
        { unfold D, Rminus. rewrite exp_plus, exp_Ropp. pose proof (exp_pos (a i xi)). field. lra. }
        rewrite EZ. pose proof (exp_pos D). pose proof (exp_pos (a i xi)). pose proof (exp_pos (wf (- D))).
        replace (exp lt * (exp D * exp (wf (- D))) / (exp D * (exp (a i xi) / Z))) with (exp lt * exp (wf (- D)) / (exp (a i xi) / Z)) by (field; lra). ring. }
      rewrite <- exp_plus in F. apply exp_inv in F. rewrite F. unfold D. ring.
  Qed.
End Weighted.

(** ** Direction of the adaptation *)
Lemma mean_acc_spec las : mean_acc las = mean_acceptance las.
Proof.
  unfold mean_acc, mean_acceptance. f_equal. apply rsum_ext. intros l _. unfold Rmin. destruct (Rle_dec l 0) as [H|H], (Rle_dec 1 (exp l)) as [H1|H1]; auto; rewrite ?exp_0; auto.
  - assert (exp l <= exp 0) by (apply exp_le; auto). rewrite exp_0 in *. lra.
  - exfalso. apply H1. rewrite <- exp_0. apply exp_le. lra.
Qed.

Lemma clip_follows lo hi r drift : lo <= r <= hi -> follows lo hi r drift (clip lo hi (r + drift)).
Proof.
  intros [H1 H2]. assert (K : (r + drift < lo /\ clip lo hi (r + drift) = lo) \/ (lo <= r + drift <= hi /\ clip lo hi (r + drift) = r + drift) \/ (hi < r + drift /\ clip lo hi (r + drift) = hi)).
  { unfold clip. destruct (Rlt_dec (r + drift) lo) as [L|L].
    - left. split; auto. rewrite Rmax_right by lra. apply Rmin_left. lra.
    - right. rewrite Rmax_left by lra. destruct (Rlt_dec hi (r + drift)); [right|left]; (split; [lra|]); [apply Rmin_right|apply Rmin_left]; lra. }
  unfold follows. destruct K as [[K ->]|[[K ->]|[K ->]]]; unfold Rabs; repeat split; intros;
    repeat match goal with |- context [Rcase_abs ?a] => destruct (Rcase_abs a) end; lra.
Qed.
