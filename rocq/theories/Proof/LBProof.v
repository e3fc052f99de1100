(** Plain locally balanced sampler: proofs. *)
From Coq Require Import String Reals List Lra Lia Arith.
From Verif.Base Require Import RSum Cube Dist MH.
From Verif.Spec Require Import Chain.
From Verif.Model Require Import MathUtil LocallyBalanced.
From Verif.Proof Require Import MathUtilProof GibbsProof.
Import ListNotations.
Local Open Scope R_scope.

Lemma neighbor_length x i : length (neighbor x i) = length x.
Proof. apply upd_length. Qed.

Lemma neighbor_states d x i : In x (states d 2) -> In (neighbor x i) (states d 2).
Proof.
  rewrite !in_states. intros [Hl HF]. rewrite neighbor_length. split; auto. apply Forall_upd; auto. lia.
Qed.

Lemma neighbor_involutive d x i : In x (states d 2) -> neighbor (neighbor x i) i = x.
Proof.
  intros Hx. pose proof (proj1 (in_states _ _ _) Hx) as [Hl HF]. unfold neighbor.
  destruct (Nat.lt_ge_cases i d) as [Hi|Hi].
  - rewrite nth_upd_eq by lia. rewrite upd_upd. pose proof (in_states_nth d 2 x i Hx Hi) as Hn.
    replace (1 - (1 - nth i x 0))%nat with (nth i x 0%nat) by lia. apply upd_nth_same.
  - rewrite (upd_oob i _ (upd i _ x)) by (rewrite upd_length; lia). apply upd_oob. lia.
Qed.

Section LB.
  Variables (fw : list nat -> R) (lr : list nat -> nat -> R) (wf : R -> R) (d : nat).
  Hypothesis Hd : (0 < d)%nat.
  Hypothesis Hlr : forall x i, In x (states d 2) -> (i < d)%nat -> lr x i = fw (neighbor x i) - fw x.
  Hypothesis Hwf : forall t, wf t = t + wf (- t).

  Definition lb_Z (x : list nat) : R := rsum (seq 0 d) (fun i => exp (wf (lr x i))).

  Lemma lb_Z_pos x : 0 < lb_Z x.
  Proof. apply rsum_pos; [destruct d; [lia|discriminate]|]. intros; apply exp_pos. Qed.

  Lemma E_lb x f : In x (states d 2) -> E (lb_move wf lr x) f = rsum (seq 0 d) (fun i => exp (wf (lr x i)) / lb_Z x * f (neighbor x i)).
  Proof.
    intros Hx. apply in_states in Hx. destruct Hx as [Hl _]. unfold lb_move. rewrite E_dmap, E_categorical, map_length, seq_length, Hl.
    apply rsum_ext. intros i Hi. apply in_seq in Hi. rewrite (nth_map_lt _ _ i 0%nat 0) by (rewrite seq_length; lia).
    rewrite seq_nth by lia. unfold sumexp. rewrite rsum_map. reflexivity.
  Qed.

  Lemma lb_is_prob x : In x (states d 2) -> is_prob (lb_move wf lr x).
  Proof.
    intros Hx. apply in_states in Hx. destruct Hx as [Hl _]. apply is_prob_dmap, is_prob_categorical. rewrite Hl. destruct d; [lia|discriminate].
  Qed.

  Lemma lb_flow x i : In x (states d 2) -> (i < d)%nat ->
    exp (fw x) * exp (wf (lr x i)) = exp (fw (neighbor x i)) * exp (wf (lr (neighbor x i) i)).
  Proof.
    intros Hx Hi. rewrite <- !exp_plus. f_equal. rewrite !Hlr by (auto using neighbor_states).
    rewrite (neighbor_involutive d) by auto. rewrite (Hwf (fw (neighbor x i) - fw x)).
    replace (- (fw (neighbor x i) - fw x)) with (fw x - fw (neighbor x i)) by ring. ring.
  Qed.

  (** Reversible for the target times the total balanced weight. *)
  Theorem lb_reversible : reversible (states d 2) (fun x => exp (fw x) * lb_Z x) (lb_move wf lr).
  Proof.
    apply (aux_reversible (states d 2) (seq 0 d) neighbor (fun _ i => i)) with
      (w := fun x i => exp (wf (lr x i)) / lb_Z x) (r := fun _ => 0).
    - apply NoDup_states.
    - apply seq_NoDup.
    - intros; apply neighbor_states; auto.
    - auto.
    - intros; apply (neighbor_involutive d); auto.
    - auto.
    - intros x f Hx. rewrite E_lb by auto. ring.
    - intros x i Hx Hi. apply in_seq in Hi.
      pose proof (lb_Z_pos x). pose proof (lb_Z_pos (neighbor x i)).
      transitivity (exp (fw x) * exp (wf (lr x i))); [field; lra|]. rewrite lb_flow by (auto; lia). field; lra.
  Qed.

  Lemma argmax_list {A} (h : A -> R) (l : list A) : l <> [] -> exists a, In a l /\ forall b, In b l -> h b <= h a.
  Proof.
    induction l as [|a l IH]; [congruence|]. intros _. destruct l as [|a' l].
    - exists a. split; [left; auto|]. intros b [->|[]]. lra.
    - destruct IH as (m & Hm & Hmax); [discriminate|]. destruct (Rle_dec (h m) (h a)) as [Hle|Hgt].
      + exists a. split; [left; auto|]. intros b [->|Hb]; [lra|]. specialize (Hmax b Hb). lra.
      + exists m. split; [right; auto|]. intros b [->|Hb]; [lra|auto].
  Qed.

  Lemma states_ne : states d 2 <> [].
  Proof.
    intros H. assert (Hin : In (repeat 0%nat d) (states d 2)).
    { apply in_states. split; [apply repeat_length|]. apply Forall_forall. intros x Hx. apply repeat_spec in Hx. lia. }
    rewrite H in Hin. destruct Hin.
  Qed.

  (** A harmonic function of the move is constant. *)
  Lemma lb_harmonic_const h : (forall x, In x (states d 2) -> E (lb_move wf lr x) h = h x) ->
    forall x y, In x (states d 2) -> In y (states d 2) -> h x = h y.
  Proof.
    intros Hh. destruct (argmax_list h (states d 2) states_ne) as (m & Hm & Hmax).
    assert (Hnb : forall x i, In x (states d 2) -> h x = h m -> (i < d)%nat -> h (neighbor x i) = h m).
    { intros x i Hx Hxm Hi. apply Rle_antisym; [apply Hmax, neighbor_states; auto|].
      pose proof (Hh x Hx) as He. rewrite E_lb in He by auto.
      pose proof (lb_Z_pos x) as HZ.
      assert (Hs : rsum (seq 0 d) (fun i => exp (wf (lr x i)) / lb_Z x * (h m - h (neighbor x i))) = 0).
      { rewrite (rsum_ext _ _ (fun i => / lb_Z x * h m * exp (wf (lr x i)) - exp (wf (lr x i)) / lb_Z x * h (neighbor x i))) by (intros; field; lra).
        rewrite rsum_minus, He, rsum_scal. fold (lb_Z x). rewrite Hxm. field. lra. }
      assert (Hge : exp (wf (lr x i)) / lb_Z x * (h m - h (neighbor x i)) <= 0).
      { rewrite <- Hs. apply (rsum_ge_term (seq 0 d) (fun i => exp (wf (lr x i)) / lb_Z x * (h m - h (neighbor x i)))); [apply in_seq; lia|].
        intros j Hj. pose proof (Hmax (neighbor x j) (neighbor_states d x j Hx)). apply Rmult_le_pos; [|lra].
        apply Rlt_le, Rdiv_lt_0_compat; auto. apply exp_pos. }
      assert (0 < exp (wf (lr x i)) / lb_Z x) by (apply Rdiv_lt_0_compat; auto; apply exp_pos).
      destruct (Rle_dec (h m) (h (neighbor x i))); auto. nra. }
    assert (Hall : forall y, In y (states d 2) -> h y = h m).
    { intros y Hy.
      set (mix := fun k => firstn k y ++ skipn k m).
      pose proof (proj1 (in_states _ _ _) Hy) as [Hly HFy]. pose proof (proj1 (in_states _ _ _) Hm) as [Hlm HFm].
      assert (Hmix : forall k, (k <= d)%nat -> In (mix k) (states d 2) /\ h (mix k) = h m).
      { induction k as [|k IH]; intros Hk.
        - unfold mix. cbn [firstn skipn app]. auto.
        - destruct IH as [IH1 IH2]; [lia|].
          assert (Hc : mix (S k) = mix k \/ mix (S k) = neighbor (mix k) k).
          { assert (Hlen : length (mix k) = d).
            { unfold mix. rewrite app_length, firstn_length, skipn_length. lia. }
            assert (Hlen' : length (mix (S k)) = d).
            { unfold mix. rewrite app_length, firstn_length, skipn_length. lia. }
            assert (Hnth : forall q i, (q <= d)%nat -> (i < d)%nat -> nth i (mix q) 0%nat = if Nat.ltb i q then nth i y 0%nat else nth i m 0%nat).
            { intros q i Hq Hi. unfold mix. destruct (Nat.ltb_spec i q).
              - rewrite app_nth1 by (rewrite firstn_length; lia).
                rewrite <- (firstn_skipn q y) at 2. rewrite app_nth1 by (rewrite firstn_length; lia). reflexivity.
              - rewrite app_nth2 by (rewrite firstn_length; lia). rewrite firstn_length, Nat.min_l by lia.
                rewrite <- (firstn_skipn q m) at 2. rewrite app_nth2 by (rewrite firstn_length; lia). rewrite firstn_length, Nat.min_l by lia. reflexivity. }
            pose proof (in_states_nth d 2 y k Hy ltac:(lia)) as Hyk. pose proof (in_states_nth d 2 m k Hm ltac:(lia)) as Hmk.
            destruct (Nat.eq_dec (nth k y 0%nat) (nth k m 0%nat)) as [He|Hne].
            - left. apply (list_eq_nth 0%nat); [lia|]. intros i Hi. rewrite !Hnth by lia.
              destruct (Nat.ltb_spec i (S k)); destruct (Nat.ltb_spec i k); try lia. replace i with k by lia. auto.
            - right. apply (list_eq_nth 0%nat); [rewrite neighbor_length; lia|]. intros i Hi. rewrite Hnth by lia. unfold neighbor.
              destruct (Nat.eq_dec i k) as [->|Hik].
              + rewrite nth_upd_eq by lia. rewrite Hnth by lia. rewrite Nat.ltb_irrefl. destruct (Nat.ltb_spec k (S k)); lia.
              + rewrite nth_upd_neq by lia. rewrite Hnth by lia.
                destruct (Nat.ltb_spec i (S k)); destruct (Nat.ltb_spec i k); try lia. }
          destruct Hc as [->| ->]; auto. split; [apply neighbor_states; auto|]. apply Hnb; auto. }
      destruct (Hmix d (Nat.le_refl d)) as [_ H]. unfold mix in H.
      rewrite <- Hly in H at 1. rewrite firstn_all in H. rewrite skipn_all2 in H by lia. rewrite app_nil_r in H. exact H. }
    intros x y Hx Hy. rewrite (Hall x Hx), (Hall y Hy). reflexivity.
  Qed.

  (** The target is invariant exactly when the total balanced weight is the same at every state. *)
  Theorem lb_invariant_iff :
    invariant (states d 2) (fun x => exp (fw x)) (lb_move wf lr) <->
    (forall x y, In x (states d 2) -> In y (states d 2) -> lb_Z x = lb_Z y).
  Proof.
    split.
    - intros Hinv.
      assert (Hh : forall x, In x (states d 2) -> E (lb_move wf lr x) (fun y => / lb_Z y) = / lb_Z x).
      { intros x Hx.
        set (ind := fun y => if list_eq_dec Nat.eq_dec y x then 1 else 0).
        pose proof (Hinv ind) as H1. pose proof (lb_reversible ind (fun y => / lb_Z y)) as H2. cbv beta in H1, H2.
        assert (Hsel : forall F : list nat -> R, rsum (states d 2) (fun y => F y * ind y) = F x).
        { intros F. rewrite (rsum_single (states d 2) _ x (NoDup_states d 2) Hx).
          - unfold ind. destruct (list_eq_dec Nat.eq_dec x x); [ring|congruence].
          - intros y Hy Hyx. unfold ind. destruct (list_eq_dec Nat.eq_dec y x); [congruence|ring]. }
        rewrite Hsel in H1.
        rewrite (rsum_ext (states d 2) (fun y => exp (fw y) * lb_Z y * ind y * E (lb_move wf lr y) (fun y => / lb_Z y))
                   (fun y => exp (fw y) * lb_Z y * E (lb_move wf lr y) (fun y => / lb_Z y) * ind y)) in H2 by (intros; ring).
        rewrite (Hsel (fun y => exp (fw y) * lb_Z y * E (lb_move wf lr y) (fun y => / lb_Z y))) in H2.
        rewrite (rsum_ext (states d 2) (fun y => exp (fw y) * lb_Z y * / lb_Z y * E (lb_move wf lr y) ind)
                   (fun y => exp (fw y) * E (lb_move wf lr y) ind)) in H2.
        2:{ intros y _. pose proof (lb_Z_pos y). field. lra. }
        rewrite H1 in H2. pose proof (lb_Z_pos x). pose proof (exp_pos (fw x)).
        apply (Rmult_eq_reg_l (exp (fw x) * lb_Z x)); [|apply Rgt_not_eq; apply Rmult_lt_0_compat; lra].
        rewrite H2. field. lra. }
      intros x y Hx Hy. pose proof (lb_harmonic_const _ Hh x y Hx Hy) as H.
      rewrite <- (Rinv_inv (lb_Z x)), <- (Rinv_inv (lb_Z y)), H. reflexivity.
    - intros Hc f.
      assert (Hr : invariant (states d 2) (fun x => exp (fw x) * lb_Z x) (lb_move wf lr)).
      { apply reversible_invariant; [intros; apply lb_is_prob; auto|apply lb_reversible]. }
      destruct (states d 2) as [|x0 l] eqn:HS; [reflexivity|]. rewrite <- HS in *.
      assert (Hx0 : In x0 (states d 2)) by (rewrite HS; left; auto).
      specialize (Hr f). pose proof (lb_Z_pos x0).
      apply (Rmult_eq_reg_l (lb_Z x0)); [|lra]. rewrite <- !rsum_scal.
      transitivity (rsum (states d 2) (fun x => exp (fw x) * lb_Z x * E (lb_move wf lr x) f)).
      { apply rsum_ext. intros x Hx. rewrite (Hc x0 x) by auto. ring. }
      rewrite Hr. apply rsum_ext. intros x Hx. rewrite (Hc x0 x) by auto. ring.
  Qed.
End LB.

Lemma wf_balanced ty w0 : apply_weight_function_logscale ty 0 = Some w0 ->
  forall t, (fun t => match apply_weight_function_logscale ty t with Some w => w | None => 0 end) t
            = t + (fun t => match apply_weight_function_logscale ty t with Some w => w | None => 0 end) (- t).
Proof.
  unfold apply_weight_function_logscale. intros H t.
  destruct (String.eqb ty "SQRT"); [field|]. destruct (String.eqb ty "RATIO").
  { unfold log_sigmoid. rewrite Ropp_involutive.
    replace (1 + exp t) with (exp t * (1 + exp (- t))).
    - pose proof (exp_pos t). pose proof (exp_pos (- t)). rewrite ln_mult by lra. rewrite ln_exp. ring.
    - rewrite Rmult_plus_distr_l, <- exp_plus, Rplus_opp_r, exp_0. ring. }
  destruct (String.eqb ty "MAX").
  { destruct (Rle_dec t 0); [rewrite Rmax_right, Rmax_left by lra|rewrite Rmax_left, Rmax_right by lra]; ring. }
  destruct (String.eqb ty "MIN"); [|discriminate].
  destruct (Rle_dec t 0); [rewrite Rmin_left, Rmin_right by lra|rewrite Rmin_right, Rmin_left by lra]; ring.
Qed.

(** One binary site: the move always flips, so a non-uniform target is not invariant. *)
Theorem lb_one_site_refuted wf (fw : list nat -> R) : fw [0]%nat <> fw [1]%nat ->
  ~ invariant (states 1 2) (fun x => exp (fw x)) (lb_move wf (fun x i => fw (neighbor x i) - fw x)).
Proof.
  intros Hne H. specialize (H (fun x => INR (nth 0 x 0%nat))).
  change (states 1 2) with [[0]; [1]]%nat in H. cbn [rsum] in H.
  assert (Hs : forall x : list nat, In x (states 1 2) -> forall f, E (lb_move wf (fun x i => fw (neighbor x i) - fw x) x) f = f (neighbor x 0)).
  { intros x Hx f. rewrite (E_lb _ wf 1) by auto. cbn [seq rsum]. unfold lb_Z. cbn [seq rsum].
    pose proof (exp_pos (wf (fw (neighbor x 0) - fw x))). field. lra. }
  rewrite !Hs in H by (apply in_states; split; [reflexivity|repeat constructor]).
  cbn in H. apply Hne. apply exp_inv. lra.
Qed.

Lemma logscale_exp ty w0 t : apply_weight_function_logscale ty 0 = Some w0 ->
  exp (match apply_weight_function_logscale ty t with Some w => w | None => 0 end)
  = match apply_weight_function ty (exp t) with Some v => v | None => 0 end.
Proof.
  intros H. pose proof (weight_logscale ty t) as Hl.
  destruct (weight_cases ty (exp t)) as [[-> Hw]|[[-> Hw]|[[-> Hw]|[[-> Hw]|[Hn Hw]]]]];
    try (destruct (apply_weight_function _ (exp t)) as [g|] eqn:Eg; [|discriminate];
         destruct (apply_weight_function_logscale _ t) as [l|]; [|contradiction];
         destruct (weight_balanced _ (exp t) g (exp_pos t) Eg) as [Hg _]; rewrite Hl, exp_ln by lra; reflexivity).
  exfalso. unfold apply_weight_function_logscale in H. apply Hn.
  destruct (String.eqb_spec ty "SQRT"); [subst; simpl; auto|]. destruct (String.eqb_spec ty "RATIO"); [subst; simpl; auto|].
  destruct (String.eqb_spec ty "MAX"); [subst; simpl; auto|]. destruct (String.eqb_spec ty "MIN"); [subst; simpl; auto|discriminate].
Qed.

Theorem lb_main : forall ty w0 (fw : list nat -> R) (lr : list nat -> nat -> R) d law,
  apply_weight_function_logscale ty 0 = Some w0 -> (0 < d)%nat ->
  (forall x i, In x (states d 2) -> (i < d)%nat -> lr x i = fw (neighbor x i) - fw x) ->
  (forall x, lb_step (Some maxcut_sig) ty lr x = Some (law x)) ->
  let g := fun r => match apply_weight_function ty r with Some v => v | None => 0 end in
  let Z := fun x => rsum (seq 0 d) (fun i => g (exp (fw (neighbor x i)) / exp (fw x))) in
  reversible (states d 2) (fun x => exp (fw x) * Z x) law /\
  (invariant (states d 2) (fun x => exp (fw x)) law <-> forall x y, In x (states d 2) -> In y (states d 2) -> Z x = Z y).
Proof.
  intros ty w0 fw lr d law Hty Hd Hlr Hlaw g Z.
  set (wf := fun t => match apply_weight_function_logscale ty t with Some w => w | None => 0 end).
  assert (Hl : forall x, law x = lb_move wf lr x).
  { intros x. specialize (Hlaw x). unfold lb_step in Hlaw. cbn [lr_values lr_nbr_args maxcut_sig negb Nat.eqb] in Hlaw. rewrite Hty in Hlaw.
    injection Hlaw as Hlaw. symmetry. exact Hlaw. }
  assert (HZ : forall x, In x (states d 2) -> Z x = lb_Z lr wf d x).
  { intros x Hx. unfold Z, lb_Z. apply rsum_ext. intros i Hi. apply in_seq in Hi. unfold wf. rewrite (logscale_exp ty w0) by auto.
    unfold g. rewrite Hlr by (auto; lia). unfold Rdiv. rewrite <- exp_Ropp, <- exp_plus. reflexivity. }
  pose proof (wf_balanced ty w0 Hty) as Hbal.
  split.
  - intros p q. pose proof (lb_reversible fw lr wf d Hd Hlr Hbal p q) as H. cbv beta in H.
    transitivity (rsum (states d 2) (fun x => exp (fw x) * lb_Z lr wf d x * p x * E (lb_move wf lr x) q)).
    { apply rsum_ext. intros x Hx. rewrite Hl, HZ by auto. reflexivity. }
    rewrite H. apply rsum_ext. intros x Hx. rewrite Hl, HZ by auto. reflexivity.
  - pose proof (lb_invariant_iff fw lr wf d Hd Hlr Hbal) as H.
    split.
    + intros Hi x y Hx Hy. rewrite !HZ by auto. apply H; auto. intros f. specialize (Hi f).
      rewrite <- Hi. apply rsum_ext. intros z Hz. rewrite Hl. reflexivity.
    + intros Hc f. rewrite <- (proj2 H) with (f := f).
      * apply rsum_ext. intros z Hz. rewrite Hl. reflexivity.
      * intros x y Hx Hy. rewrite <- !HZ by auto. auto.
Qed.

Theorem lb_supported : forall ty lr x,
  lb_step None ty lr x = None /\ lb_step (Some bernoulli_sig) ty lr x = None /\ lb_step (Some mis_sig) ty lr x = None /\
  lb_step (Some normcut_sig) ty lr x = None /\
  (lb_step (Some maxcut_sig) ty lr x <> None <-> In ty ["SQRT"; "RATIO"; "MAX"; "MIN"]%string).
Proof.
  intros ty lr x. split; [reflexivity|]. split; [reflexivity|]. split; [reflexivity|].
  split; [unfold lb_step; cbn [lr_values lr_nbr_args normcut_sig negb Nat.eqb]; destruct (apply_weight_function_logscale ty 0); reflexivity|].
  unfold lb_step. cbn [lr_values lr_nbr_args maxcut_sig negb Nat.eqb].
  assert (Hc : apply_weight_function_logscale ty 0 <> None <-> In ty ["SQRT"; "RATIO"; "MAX"; "MIN"]%string).
  { unfold apply_weight_function_logscale.
    destruct (String.eqb_spec ty "SQRT"); [subst; simpl; split; [tauto|discriminate]|].
    destruct (String.eqb_spec ty "RATIO"); [subst; simpl; split; [tauto|discriminate]|].
    destruct (String.eqb_spec ty "MAX"); [subst; simpl; split; [tauto|discriminate]|].
    destruct (String.eqb_spec ty "MIN"); [subst; simpl; split; [tauto|discriminate]|].
    simpl. split; [tauto|]. intros [H|[H|[H|[H|[]]]]]; congruence. }
  rewrite <- Hc. destruct (apply_weight_function_logscale ty 0); split; congruence.
Qed.
