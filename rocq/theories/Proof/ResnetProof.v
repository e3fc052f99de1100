From Coq Require Import Reals String List Arith Bool Lia Lra.
From Verif.Base Require Import RSum Cube XFloat.
From Verif.Model Require Import Convert Resnet.
From Verif.Spec Require Import ConvertSpec ResnetSpec.
From Verif.Proof Require Import ConvertProof.
Import ListNotations.
Local Open Scope R_scope.

Lemma ob_some {A B} (o : option A) (f : A -> option B) b : ob o f = Some b -> exists a, o = Some a /\ f a = Some b.
Proof. destruct o as [a |]; [| discriminate]. exists a. auto. Qed.
Lemma shape_eqb_iff a b : shape_eqb a b = true <-> a = b.
Proof. unfold shape_eqb. destruct (list_eq_dec Nat.eq_dec a b); split; intros; congruence. Qed.

(** *** Sizes *)
Lemma shrunk_pos s n : (1 <= shrunk s n)%nat.
Proof. unfold shrunk. lia. Qed.
Lemma out3 s n : (1 <= n)%nat -> out_size 3 1 s n = shrunk s n.
Proof. intros. unfold out_size, shrunk. f_equal. f_equal. lia. Qed.
Lemma out1 s n : out_size 1 0 s n = shrunk s n.
Proof. unfold out_size, shrunk. f_equal. f_equal. lia. Qed.
Lemma shrunk1 n : (1 <= n)%nat -> shrunk 1 n = n.
Proof. intros. unfold shrunk. rewrite Nat.div_1_r. lia. Qed.

(** Padding SAME of a kernel of size 1: none. *)
Lemma same_padding_one s n : (1 <= s)%nat -> (1 <= n)%nat -> ((shrunk s n - 1) * s + 1 <= n)%nat.
Proof.
  intros Hs Hn. unfold shrunk. rewrite Nat.add_sub. pose proof (Nat.mul_div_le (n - 1) s ltac:(lia)). rewrite Nat.mul_comm. lia.
Qed.

(** *** Definedness and shapes *)
Lemma conv_total ps path features k stride pad x : conv_shape ps path k (chans x) features -> (k <= rows x + 2 * pad)%nat -> (k <= cols x + 2 * pad)%nat ->
  exists y, conv_named ps path features k stride pad x = Some y /\ rows y = out_size k pad stride (rows x) /\ cols y = out_size k pad stride (cols x) /\ chans y = features.
Proof.
  intros ((K & EK & SK) & (b & Eb & Sb)) Hr Hc. unfold conv_named. rewrite EK, Eb. unfold conv.
  rewrite (proj2 (shape_eqb_iff _ _) SK), (proj2 (shape_eqb_iff _ _) Sb), (proj2 (Nat.leb_le _ _) Hr), (proj2 (Nat.leb_le _ _) Hc). cbn [andb].
  eexists. split; [reflexivity |]. cbn [rows cols chans]. auto.
Qed.

Definition block_shape (ps : params) (C : nat) (b : string * nat) : Prop :=
  conv_shape ps [fst b; "Conv_0"%string] 3 C C /\ conv_shape ps [fst b; "Conv_1"%string] 3 C C /\
  (snd b = 1%nat \/ conv_shape ps [fst b; "shortcut_conv"%string] 1 C C).

Lemma block_total ps C b x : block_shape ps C b -> chans x = C -> (1 <= rows x)%nat -> (1 <= cols x)%nat ->
  exists y, basic_block ps (fst b) C (snd b) x = Some y /\ rows y = shrunk (snd b) (rows x) /\ cols y = shrunk (snd b) (cols x) /\ chans y = C.
Proof.
  intros (S0 & S1 & S2) HC Hr Hc. unfold basic_block.
  destruct (conv_total ps [fst b; "Conv_0"%string] C 3 (snd b) 1 x) as (h & Eh & R1 & R2 & R3); [rewrite HC; exact S0 | lia | lia |].
  rewrite Eh. cbn [ob]. rewrite out3 in R1, R2 by assumption.
  destruct (conv_total ps [fst b; "Conv_1"%string] C 3 1 1 (map_val swish h)) as (o & Eo & Q1 & Q2 & Q3);
    [cbn; rewrite R3; exact S1 | cbn [map_val rows]; pose proof (shrunk_pos (snd b) (rows x)); lia | cbn [map_val cols]; pose proof (shrunk_pos (snd b) (cols x)); lia |].
  rewrite Eo. cbn [ob]. cbn [map_val rows cols] in Q1, Q2.
  rewrite out3, shrunk1 in Q1 by (rewrite R1; apply shrunk_pos). rewrite out3, shrunk1 in Q2 by (rewrite R2; apply shrunk_pos).
  unfold needs_shortcut. rewrite HC, Nat.eqb_refl. cbn [negb]. rewrite orb_false_r.
  assert (HS : exists sc, (if negb (Nat.eqb (snd b) 1) then conv_named ps [fst b; "shortcut_conv"%string] C 1 (snd b) 0 x else Some x) = Some sc /\
    rows sc = shrunk (snd b) (rows x) /\ cols sc = shrunk (snd b) (cols x) /\ chans sc = C).
  { destruct (Nat.eqb_spec (snd b) 1) as [E | N]; cbn [negb].
    - exists x. rewrite E, !shrunk1 by assumption. auto.
    - destruct S2 as [E | S2]; [contradiction |].
      destruct (conv_total ps [fst b; "shortcut_conv"%string] C 1 (snd b) 0 x) as (sc & Es & T1 & T2 & T3); [rewrite HC; exact S2 | lia | lia |].
      exists sc. rewrite out1 in T1, T2. auto. }
  destruct HS as (sc & -> & T1 & T2 & T3). cbn [ob]. unfold add. rewrite Q1, Q2, Q3, R1, R2, T1, T2, T3, !Nat.eqb_refl. cbn [andb ob].
  eexists. split; [reflexivity |]. cbn [map_val rows cols chans]. auto.
Qed.

Lemma blocks_total ps C : forall pl x, Forall (block_shape ps C) pl -> chans x = C -> (1 <= rows x)%nat -> (1 <= cols x)%nat ->
  exists y, blocks ps C pl x = Some y /\ rows y = fold_left (fun n b => shrunk (snd b) n) pl (rows x) /\
    cols y = fold_left (fun n b => shrunk (snd b) n) pl (cols x) /\ chans y = C.
Proof.
  induction pl as [| b pl IH]; intros x HF HC Hr Hc; [exists x; auto |]. inversion HF; subst.
  destruct (block_total ps (chans x) b x) as (y & Ey & R1 & R2 & R3); auto. destruct b as [name stride]. cbn [blocks fst snd fold_left] in *. rewrite Ey. cbn [ob].
  rewrite <- R1, <- R2. apply IH; [assumption | assumption | rewrite R1; apply shrunk_pos | rewrite R2; apply shrunk_pos].
Qed.

Lemma plan_shapes ps C : net_shapes ps C -> Forall (block_shape ps C) plan.
Proof.
  intros (_ & HB & HS & _). unfold plan.
  assert (G : forall b s, In b ["0"; "1"; "2"; "3"; "4"; "5"; "6"; "7"]%string -> (s = 1%nat \/ In b ["0"; "1"]%string) -> block_shape ps C (("BasicBlock_" ++ b)%string, s)).
  { intros b s Hb Hs. split; [apply HB, Hb | split; [apply HB, Hb |]]. destruct Hs as [-> | Hs]; [left; reflexivity | right; apply HS, Hs]. }
  repeat (apply Forall_cons; [eapply (G _ _) | ]); try apply Forall_nil; cbn [In]; tauto.
Qed.

Theorem net_defined ps C H W x : net_shapes ps C -> (1 <= H)%nat -> (1 <= W)%nat -> length x = (H * W)%nat -> exists e, resnet ps C H W x = Some e.
Proof.
  intros HN HH HW HL. unfold resnet. rewrite HL, Nat.eqb_refl.
  destruct (conv_total ps ["Conv_0"%string] C 3 1 1 (image H W x)) as (t & Et & R1 & R2 & R3); [apply HN | cbn [image rows]; lia | cbn [image cols]; lia |].
  cbn [image rows cols] in R1, R2. rewrite Et. cbn [ob]. rewrite out3, shrunk1 in R1, R2 by assumption.
  destruct (blocks_total ps C plan t) as (y & Ey & _ & _ & R3'); [apply plan_shapes, HN | assumption | lia | lia |].
  rewrite Ey. cbn [ob]. destruct HN as (_ & _ & _ & (K & EK & SK) & (b & Eb & Sb)). rewrite EK, Eb. unfold dense1.
  rewrite R3', (proj2 (shape_eqb_iff _ _) SK), (proj2 (shape_eqb_iff _ _) Sb). cbn [andb]. eexists; reflexivity.
Qed.

(** *** Bound *)
Lemma swish_le x : Rabs (swish x) <= Rabs x.
Proof.
  unfold swish. rewrite Rabs_mult. rewrite <- (Rmult_1_r (Rabs x)) at 2. apply Rmult_le_compat_l; [apply Rabs_pos |].
  pose proof (exp_pos (- x)). rewrite Rabs_right by (apply Rle_ge, Rlt_le, Rinv_0_lt_compat; lra).
  rewrite <- Rinv_1. apply Rinv_le_contravar; lra.
Qed.
Definition within (M : R) (x : tensor) : Prop := forall r c i, (i < chans x)%nat -> Rabs (val x r c i) <= M.
Lemma total_nonneg ps k : 0 <= total ps k.
Proof. unfold total. destruct (lookup k ps); [| lra]. apply rsum_nonneg. intros; apply Rabs_pos. Qed.

Lemma indices_cons n s (f : list nat -> R) : rsum (indices (n :: s)) f = rsum (seq 0 n) (fun i => rsum (indices s) (fun ix => f (i :: ix))).
Proof. cbn [indices]. rewrite rsum_flat_map. apply rsum_ext. intros i _. rewrite rsum_map. reflexivity. Qed.
Lemma indices_nil (f : list nat -> R) : rsum (indices []) f = f [].
Proof. cbn. lra. Qed.
Lemma rsum_mem {A} (l : list A) (f : A -> R) a : (forall b, In b l -> 0 <= f b) -> In a l -> f a <= rsum l f.
Proof.
  induction l as [| b l IH]; intros HP Hi; [contradiction |]. cbn [rsum].
  assert (0 <= f b) by (apply HP; left; reflexivity). assert (0 <= rsum l f) by (apply rsum_nonneg; intros; apply HP; right; assumption).
  destruct Hi as [-> | Hi]; [lra |]. assert (f a <= rsum l f) by (apply IH; [intros; apply HP; right; assumption | exact Hi]). lra.
Qed.

Lemma conv_within ps path features k stride pad x y M : 0 <= M -> within M x -> conv_named ps path features k stride pad x = Some y ->
  within (conv_bound ps path M) y /\ chans y = features.
Proof.
  intros HM HX. unfold conv_named, conv_bound, total. destruct (lookup (path ++ ["kernel"%string]) ps) as [K |]; [| discriminate].
  destruct (lookup (path ++ ["bias"%string]) ps) as [b |]; [| discriminate]. unfold conv.
  destruct (shape_eqb (shape K) _) eqn:SK; [| discriminate]. destruct (shape_eqb (shape b) _) eqn:Sb; [| discriminate].
  apply shape_eqb_iff in SK, Sb. cbn [andb]. destruct (_ && _)%bool; [| discriminate]. intros [= <-]. split; [| reflexivity].
  intros r c o Ho. cbn [val chans] in *. eapply Rle_trans; [apply Rabs_triang |]. apply Rplus_le_compat.
  - eapply Rle_trans; [apply rsum_abs |].
    apply Rle_trans with (rsum (seq 0 k) (fun h => rsum (seq 0 k) (fun w => rsum (seq 0 (chans x)) (fun i => Rabs (at_ K [h; w; i; o]) * M)))).
    { apply rsum_le. intros h _. eapply Rle_trans; [apply rsum_abs |]. apply rsum_le. intros w _. eapply Rle_trans; [apply rsum_abs |].
      apply rsum_le. intros i Hi. apply in_seq in Hi. rewrite Rabs_mult, Rmult_comm. apply Rmult_le_compat_l; [apply Rabs_pos |].
      unfold at_padded. destruct (_ && _)%bool; [apply HX; lia | rewrite Rabs_R0; exact HM]. }
    rewrite SK, indices_cons, <- rsum_scal_r. apply rsum_le. intros h _. rewrite indices_cons, <- rsum_scal_r. apply rsum_le. intros w _.
    rewrite indices_cons, <- rsum_scal_r. apply rsum_le. intros i _. apply Rmult_le_compat_r; [exact HM |]. rewrite indices_cons.
    eapply Rle_trans; [| apply (rsum_mem (seq 0 features) (fun o => rsum (indices []) (fun ix => Rabs (at_ K (h :: w :: i :: o :: ix)))) o)].
    + rewrite indices_nil. lra.
    + intros o' _. rewrite indices_nil. apply Rabs_pos.
    + apply in_seq. lia.
  - rewrite Sb, indices_cons. eapply Rle_trans; [| apply (rsum_mem (seq 0 features) (fun o => rsum (indices []) (fun ix => Rabs (at_ b (o :: ix)))) o)].
    + rewrite indices_nil. lra.
    + intros o' _. rewrite indices_nil. apply Rabs_pos.
    + apply in_seq. lia.
Qed.
Lemma conv_bound_nonneg ps path M : 0 <= M -> 0 <= conv_bound ps path M.
Proof. intros. unfold conv_bound. apply Rplus_le_le_0_compat; [apply Rmult_le_pos; [apply total_nonneg | assumption] | apply total_nonneg]. Qed.
Lemma block_bound_nonneg ps sc name M : 0 <= M -> 0 <= block_bound ps sc name M.
Proof.
  intros. unfold block_bound. apply Rplus_le_le_0_compat; [apply conv_bound_nonneg, conv_bound_nonneg; assumption |].
  destruct sc; [apply conv_bound_nonneg; assumption | assumption].
Qed.
Lemma within_swish M x : within M x -> within M (map_val swish x).
Proof. intros H r c i Hi. cbn [map_val val chans] in *. eapply Rle_trans; [apply swish_le | apply H, Hi]. Qed.

Lemma block_within ps name C stride x y M : 0 <= M -> within M x -> chans x = C -> basic_block ps name C stride x = Some y ->
  within (block_bound ps (negb (Nat.eqb stride 1)) name M) y /\ chans y = C.
Proof.
  intros HM HX HC H. unfold basic_block in H. apply ob_some in H. destruct H as (h & Eh & H). apply ob_some in H. destruct H as (o & Eo & H).
  apply ob_some in H. destruct H as (sc & Es & H). apply ob_some in H. destruct H as (z & Ez & [= <-]).
  destruct (conv_within _ _ _ _ _ _ _ _ _ HM HX Eh) as [W1 C1].
  destruct (conv_within _ _ _ _ _ _ _ _ _ (conv_bound_nonneg ps _ M HM) (within_swish _ _ W1) Eo) as [W2 C2].
  unfold add in Ez. destruct (_ && _)%bool; [| discriminate]. injection Ez as <-. split; [| exact C2].
  apply within_swish. intros r c i Hi. cbn [val chans] in *. eapply Rle_trans; [apply Rabs_triang |]. unfold block_bound. apply Rplus_le_compat; [apply W2, Hi |].
  unfold needs_shortcut in Es. rewrite HC, Nat.eqb_refl in Es. cbn [negb] in Es. rewrite orb_false_r in Es.
  destruct (negb (Nat.eqb stride 1)).
  - destruct (conv_within _ _ _ _ _ _ _ _ _ HM HX Es) as [W3 C3]. apply W3. lia.
  - injection Es as <-. apply HX. lia.
Qed.
Lemma blocks_within ps C : forall pl x y M, 0 <= M -> within M x -> chans x = C -> blocks ps C pl x = Some y ->
  let M' := fold_left (fun M b => block_bound ps (negb (Nat.eqb (snd b) 1)) (fst b) M) pl M in 0 <= M' /\ within M' y /\ chans y = C.
Proof.
  induction pl as [| [name stride] pl IH]; intros x y M HM HX HC H; cbn [blocks fold_left fst snd] in *; [injection H as <-; auto |].
  apply ob_some in H. destruct H as (z & Ez & H). destruct (block_within _ _ _ _ _ _ _ HM HX HC Ez) as [W1 C1].
  exact (IH z y _ (block_bound_nonneg ps _ name M HM) W1 C1 H).
Qed.

Lemma pool_within M t i : 0 <= M -> within M t -> (i < chans t)%nat -> Rabs (pool t i) <= M.
Proof.
  intros HM HX Hi. unfold pool. destruct (Nat.eq_dec (rows t * cols t) 0) as [E | N].
  - rewrite <- mult_INR, E. cbn [INR]. unfold Rdiv. rewrite Rinv_0, Rmult_0_r, Rabs_R0. exact HM.
  - assert (HP : 0 < INR (rows t) * INR (cols t)) by (rewrite <- mult_INR; apply lt_0_INR; lia).
    unfold Rdiv. rewrite Rabs_mult, Rabs_inv, (Rabs_right (INR (rows t) * INR (cols t))) by lra.
    apply Rmult_le_reg_r with (INR (rows t) * INR (cols t)); [exact HP |]. rewrite Rmult_assoc, Rinv_l, Rmult_1_r by lra.
    eapply Rle_trans; [apply rsum_abs |]. apply Rle_trans with (rsum (seq 0 (rows t)) (fun _ => INR (cols t) * M)).
    + apply rsum_le. intros r _. eapply Rle_trans; [apply rsum_abs |]. apply Rle_trans with (rsum (seq 0 (cols t)) (fun _ => M)); [apply rsum_le; intros; apply HX, Hi |].
      rewrite rsum_const, seq_length. lra.
    + rewrite rsum_const, seq_length. lra.
Qed.

Theorem net_bounded ps C H W x e : Forall (fun v => 0 <= v <= 1) x -> resnet ps C H W x = Some e -> Rabs e <= energy_bound ps.
Proof.
  intros HX. unfold resnet. destruct (Nat.eqb (length x) (H * W)); [| discriminate]. intros Hr. apply ob_some in Hr. destruct Hr as (t & Et & Hr).
  apply ob_some in Hr. destruct Hr as (z & Ez & Hr).
  assert (W0 : within 1 (image H W x)).
  { intros r c i _. cbn [image val]. destruct (nth_in_or_default (r * W + c) x 0) as [Hi | ->]; [| rewrite Rabs_R0; lra].
    rewrite Forall_forall in HX. apply HX in Hi. rewrite Rabs_right; lra. }
  destruct (conv_within _ _ _ _ _ _ _ _ _ Rle_0_1 W0 Et) as [W1 C1].
  destruct (blocks_within ps C plan t z _ (conv_bound_nonneg ps _ 1 Rle_0_1) W1 C1 Ez) as (HM & W2 & C2).
  unfold energy_bound. cbn [plan fold_left fst snd Nat.eqb negb] in HM, W2. cbn [fold_left].
  match type of HM with 0 <= ?m => set (M := m) in * end.
  destruct (lookup ["Dense_0"; "kernel"]%string ps) as [K |] eqn:EK; [| discriminate]. destruct (lookup ["Dense_0"; "bias"]%string ps) as [b |] eqn:Eb; [| discriminate].
  unfold dense1 in Hr. destruct (shape_eqb (shape K) _) eqn:SK; [| discriminate]. destruct (shape_eqb (shape b) _) eqn:Sb; [| discriminate].
  apply shape_eqb_iff in SK, Sb. cbn [andb] in Hr. injection Hr as <-. unfold total. rewrite EK, Eb.
  eapply Rle_trans; [apply Rabs_triang |]. apply Rplus_le_compat.
  - eapply Rle_trans; [apply rsum_abs |]. rewrite SK, indices_cons, <- rsum_scal_r. apply rsum_le. intros i Hi. apply in_seq in Hi.
    rewrite Rabs_mult, Rmult_comm, indices_cons. cbn [seq rsum]. rewrite indices_nil, Rplus_0_r.
    apply Rmult_le_compat_l; [apply Rabs_pos | apply pool_within; [exact HM | exact W2 | lia]].
  - rewrite Sb, indices_cons. cbn [seq rsum]. rewrite indices_nil. lra.
Qed.

(** *** Derivative in each pixel *)
Definition dv (f : R -> R) : Prop := forall t, exists l, derivable_pt_lim f t l.
Lemma dv_ext f g : (forall t, f t = g t) -> dv f -> dv g.
Proof.
  intros HE HF t. destruct (HF t) as (l & Hl). exists l. intros eps He. destruct (Hl eps He) as (d & Hd). exists d. intros h Hh Hd'. rewrite <- !HE. apply Hd; assumption.
Qed.
Lemma dv_const c : dv (fun _ => c).
Proof. intros t. exists 0. apply derivable_pt_lim_const. Qed.
Lemma dv_id : dv (fun t => t).
Proof. intros t. exists 1. apply derivable_pt_lim_id. Qed.
Lemma dv_plus f g : dv f -> dv g -> dv (fun t => f t + g t).
Proof. intros HF HG t. destruct (HF t) as (a & Ha), (HG t) as (b & Hb). exists (a + b). exact (derivable_pt_lim_plus f g t a b Ha Hb). Qed.
Lemma dv_mult f g : dv f -> dv g -> dv (fun t => f t * g t).
Proof. intros HF HG t. destruct (HF t) as (a & Ha), (HG t) as (b & Hb). exists (a * g t + f t * b). exact (derivable_pt_lim_mult f g t a b Ha Hb). Qed.
Lemma dv_comp f g : dv f -> dv g -> dv (fun t => g (f t)).
Proof. intros HF HG t. destruct (HF t) as (a & Ha), (HG (f t)) as (b & Hb). exists (b * a). exact (derivable_pt_lim_comp f g t a b Ha Hb). Qed.
Lemma dv_rsum {A} (l : list A) (f : A -> R -> R) : (forall a, In a l -> dv (f a)) -> dv (fun t => rsum l (fun a => f a t)).
Proof.
  induction l as [| a l IH]; intros HF; cbn [rsum]; [apply dv_const |]. apply dv_plus; [apply HF; left; reflexivity | apply IH; intros; apply HF; right; assumption].
Qed.
Lemma dv_exp : dv exp.
Proof. intros t. exists (exp t). apply derivable_pt_lim_exp. Qed.
Lemma dv_swish : dv swish.
Proof.
  unfold swish. apply (dv_mult (fun t => t) (fun t => / (1 + exp (- t)))); [apply dv_id |].
  assert (HD : dv (fun t => 1 + exp (- t))).
  { apply (dv_plus (fun _ => 1)); [apply dv_const |]. apply (dv_comp (fun t => - t) exp); [| apply dv_exp].
    apply (dv_ext (fun t => -1 * t)); [intros; ring |]. apply (dv_mult (fun _ => -1) (fun t => t)); [apply dv_const | apply dv_id]. }
  intros t. destruct (HD t) as (l & Hl). pose proof (exp_pos (- t)).
  exists ((0 * (1 + exp (- t)) - l * 1) / Rsqr (1 + exp (- t))).
  pose proof (derivable_pt_lim_div (fct_cte 1) (fun t => 1 + exp (- t)) t 0 l (derivable_pt_lim_const 1 t) Hl ltac:(cbv beta; lra)) as HQ. cbv beta in HQ. unfold fct_cte in HQ.
  intros eps He. destruct (HQ eps He) as (d & Hd). exists d. intros h Hh Hd'. specialize (Hd h Hh Hd'). unfold div_fct, Rdiv in Hd. rewrite !Rmult_1_l in Hd. exact Hd.
Qed.

(** A tensor that depends on a number: constant sizes, entries with a derivative. *)
Definition smooth (T : R -> tensor) : Prop :=
  (forall t, rows (T t) = rows (T 0) /\ cols (T t) = cols (T 0) /\ chans (T t) = chans (T 0)) /\ forall r c i, dv (fun t => val (T t) r c i).
Definition smooth_result (F : R -> option tensor) : Prop := (forall t, F t = None) \/ exists T, smooth T /\ forall t, F t = Some (T t).

Lemma smooth_conv ps path features k stride pad T : smooth T -> smooth_result (fun t => conv_named ps path features k stride pad (T t)).
Proof.
  intros [HS HV]. unfold conv_named, smooth_result. destruct (lookup (path ++ ["kernel"%string]) ps) as [K |]; [| left; reflexivity].
  destruct (lookup (path ++ ["bias"%string]) ps) as [b |]; [| left; reflexivity]. unfold conv.
  destruct (shape_eqb (shape K) [k; k; chans (T 0); features] && shape_eqb (shape b) [features] && (k <=? rows (T 0%R) + 2 * pad)%nat && (k <=? cols (T 0%R) + 2 * pad)%nat) eqn:EG.
  - right. exists (fun t => {| rows := out_size k pad stride (rows (T t)); cols := out_size k pad stride (cols (T t)); chans := features;
               val := fun r c o => rsum (seq 0 k) (fun h => rsum (seq 0 k) (fun w => rsum (seq 0 (chans (T t))) (fun i =>
                        at_padded (T t) pad (r * stride + h) (c * stride + w) i * at_ K [h; w; i; o]))) + at_ b [o] |}). split.
    + split; [intros t; cbn [rows cols chans]; destruct (HS t) as (-> & -> & _); auto |]. intros r c o. cbn [val].
      apply dv_plus; [| apply dv_const]. apply dv_rsum. intros h _. apply dv_rsum. intros w _.
      apply (dv_ext (fun t => rsum (seq 0 (chans (T 0))) (fun i => at_padded (T t) pad (r * stride + h) (c * stride + w) i * at_ K [h; w; i; o]))).
      { intros t. destruct (HS t) as (_ & _ & ->). reflexivity. }
      apply dv_rsum. intros i _. apply dv_mult; [| apply dv_const]. unfold at_padded.
      apply (dv_ext (fun t => if ((pad <=? r * stride + h) && (r * stride + h <? rows (T 0%R) + pad) && (pad <=? c * stride + w) && (c * stride + w <? cols (T 0%R) + pad))%nat
        then val (T t) (r * stride + h - pad)%nat (c * stride + w - pad)%nat i else 0)).
      { intros t. destruct (HS t) as (-> & -> & _). reflexivity. }
      clear EG. match goal with |- dv (fun t => if ?b then _ else _) => destruct b end; [apply HV | apply dv_const].
    + intros t. destruct (HS t) as (-> & -> & ->). rewrite EG. reflexivity.
  - left. intros t. destruct (HS t) as (-> & -> & ->). rewrite EG. reflexivity.
Qed.
Lemma smooth_swish T : smooth T -> smooth (fun t => map_val swish (T t)).
Proof. intros [HS HV]. split; [intros t; cbn [map_val rows cols chans]; apply HS |]. intros r c i. cbn [map_val val]. apply (dv_comp (fun t => val (T t) r c i) swish); [apply HV | apply dv_swish]. Qed.
Lemma smooth_add T U : smooth T -> smooth U -> smooth_result (fun t => add (T t) (U t)).
Proof.
  intros [HS HV] [HS' HV']. unfold add, smooth_result. destruct (Nat.eqb (rows (T 0)) (rows (U 0)) && Nat.eqb (cols (T 0)) (cols (U 0)) && Nat.eqb (chans (T 0)) (chans (U 0)))%bool eqn:EG.
  - right. exists (fun t => {| rows := rows (T t); cols := cols (T t); chans := chans (T t); val := fun r c i => val (T t) r c i + val (U t) r c i |}). split.
    + split; [intros t; cbn [rows cols chans]; apply HS |]. intros r c i. cbn [val]. apply dv_plus; [apply HV | apply HV'].
    + intros t. destruct (HS t) as (E1 & E2 & E3), (HS' t) as (-> & -> & ->). rewrite E1, E2, E3, EG. reflexivity.
  - left. intros t. destruct (HS t) as (-> & -> & ->), (HS' t) as (-> & -> & ->). rewrite EG. reflexivity.
Qed.
Lemma smooth_ob (F : R -> option tensor) (G : tensor -> option tensor) :
  smooth_result F -> (forall T, smooth T -> smooth_result (fun t => G (T t))) -> smooth_result (fun t => ob (F t) G).
Proof.
  intros [HN | (T & HT & HE)] HG; [left; intros t; rewrite HN; reflexivity |].
  destruct (HG T HT) as [HN | (U & HU & HE')]; [left; intros t; rewrite HE; apply HN | right]. exists U. split; [exact HU |]. intros t. rewrite HE. apply HE'.
Qed.
Lemma smooth_some T : smooth T -> smooth_result (fun t => Some (T t)).
Proof. intros HT. right. exists T. auto. Qed.
Lemma smooth_block ps name C stride T : smooth T -> smooth_result (fun t => basic_block ps name C stride (T t)).
Proof.
  intros HT. unfold basic_block.
  destruct (smooth_conv ps [name; "Conv_0"%string] C 3 stride 1 T HT) as [HN | (U & HU & HE)]; [left; intros t; rewrite HN; reflexivity |].
  destruct (smooth_conv ps [name; "Conv_1"%string] C 3 1 1 _ (smooth_swish _ HU)) as [HN | (V & HV & HE2)]; [left; intros t; rewrite HE; cbn [ob]; rewrite HN; reflexivity |].
  assert (HSC : smooth_result (fun t => if needs_shortcut C stride (T t) then conv_named ps [name; "shortcut_conv"%string] C 1 stride 0 (T t) else Some (T t))).
  { assert (HE3 : forall t, needs_shortcut C stride (T t) = needs_shortcut C stride (T 0)) by (intros t; unfold needs_shortcut; destruct HT as [HS _]; destruct (HS t) as (_ & _ & ->); reflexivity).
    destruct (needs_shortcut C stride (T 0)).
    - destruct (smooth_conv ps [name; "shortcut_conv"%string] C 1 stride 0 T HT) as [HN | (Q & HQ & HE4)]; [left | right; exists Q; split; [exact HQ |]]; intros t; rewrite HE3; auto.
    - right. exists T. split; [exact HT |]. intros t. rewrite HE3. reflexivity. }
  destruct HSC as [HN | (Q & HQ & HE3)]; [left; intros t; rewrite HE; cbn [ob]; rewrite HE2; cbn [ob]; rewrite HN; reflexivity |].
  destruct (smooth_add V Q HV HQ) as [HN | (Z & HZ & HE4)].
  - left. intros t. rewrite HE. cbn [ob]. rewrite HE2. cbn [ob]. rewrite HE3. cbn [ob]. rewrite HN. reflexivity.
  - right. exists (fun t => map_val swish (Z t)). split; [apply smooth_swish, HZ |]. intros t. rewrite HE. cbn [ob]. rewrite HE2. cbn [ob]. rewrite HE3. cbn [ob]. rewrite HE4. reflexivity.
Qed.
Lemma smooth_blocks ps C : forall pl T, smooth T -> smooth_result (fun t => blocks ps C pl (T t)).
Proof.
  induction pl as [| [name stride] pl IH]; intros T HT; cbn [blocks]; [apply smooth_some, HT |].
  apply smooth_ob; [apply smooth_block, HT |]. intros U HU. apply IH, HU.
Qed.

Lemma nth_upd_if v : forall x i j, nth j (upd i v x) 0 = if Nat.eqb j i && (i <? length x)%nat then v else nth j x 0.
Proof.
  induction x as [| a x IH]; intros [| i] [| j]; cbn [upd nth length Nat.eqb andb]; try reflexivity.
  - rewrite andb_false_r. reflexivity.
  - rewrite IH. reflexivity.
Qed.

Theorem net_gradient ps C H W x i e : resnet ps C H W x = Some e -> exists f, (forall t, resnet ps C H W (upd i t x) = Some (f t)) /\ forall t, exists g, derivable_pt_lim f t g.
Proof.
  intros HR. unfold resnet in *. destruct (Nat.eqb (length x) (H * W)) eqn:EL; [| discriminate].
  assert (HI : smooth (fun t => image H W (upd i t x))).
  { split; [intros t; cbn; auto |]. intros r c k. cbn [image val].
    apply (dv_ext (fun t => if Nat.eqb (r * W + c) i && (i <? length x)%nat then t else nth (r * W + c) x 0)); [intros t; rewrite nth_upd_if; reflexivity |].
    match goal with |- dv (fun t => if ?b then _ else _) => destruct b end; [apply dv_id | apply dv_const]. }
  assert (HX : exists t0, upd i t0 x = x).
  { exists (nth i x 0). apply nth_ext with 0 0; [apply upd_length |]. intros j _. rewrite nth_upd_if.
    destruct (Nat.eqb_spec j i) as [-> | N]; cbn [andb]; [destruct (i <? length x)%nat; reflexivity | reflexivity]. }
  destruct HX as (t0 & HX).
  destruct (smooth_conv ps ["Conv_0"%string] C 3 1 1 _ HI) as [HN | (T & HT & HE)]; [specialize (HN t0); rewrite HX in HN; rewrite HN in HR; discriminate |].
  destruct (smooth_blocks ps C plan T HT) as [HN | (U & HU & HE2)].
  { pose proof (HE t0) as HE'. rewrite HX in HE'. rewrite HE' in HR. cbn [ob] in HR. rewrite HN in HR. discriminate. }
  pose proof (HE t0) as HE'. rewrite HX in HE'. rewrite HE' in HR. cbn [ob] in HR. rewrite HE2 in HR. cbn [ob] in HR.
  destruct (lookup ["Dense_0"; "kernel"]%string ps) as [K |]; [| discriminate]. destruct (lookup ["Dense_0"; "bias"]%string ps) as [b |]; [| discriminate].
  unfold dense1 in *. destruct HU as [HS HV]. destruct (HS t0) as (_ & _ & HC). rewrite HC in HR.
  destruct (shape_eqb (shape K) [chans (U 0); 1%nat] && shape_eqb (shape b) [1%nat])%bool eqn:EG; [| discriminate].
  exists (fun t => rsum (seq 0 (chans (U 0))) (fun k => pool (U t) k * at_ K [k; 0%nat]) + at_ b [0%nat]). split.
  - intros t. rewrite upd_length, EL, HE. cbn [ob]. rewrite HE2. cbn [ob]. destruct (HS t) as (_ & _ & ->). rewrite EG. reflexivity.
  - apply dv_plus; [| apply dv_const]. apply dv_rsum. intros k _. apply dv_mult; [| apply dv_const]. unfold pool.
    apply (dv_ext (fun t => rsum (seq 0 (rows (U 0))) (fun r => rsum (seq 0 (cols (U 0))) (fun c => val (U t) r c k)) * / (INR (rows (U 0)) * INR (cols (U 0))))).
    { intros t. destruct (HS t) as (-> & -> & _). reflexivity. }
    apply dv_mult; [| apply dv_const]. apply dv_rsum. intros r _. apply dv_rsum. intros c _. apply HV.
Qed.
