From Coq Require Import Reals String List Arith Bool Lia Lra.
From Verif.Base Require Import RSum Cube XFloat.
From Verif.Model Require Import Convert Experiment Resnet.
From Verif.Spec Require Import ConvertSpec ResnetSpec.
From Verif.Proof Require Import ConvertProof ResnetProof ResnetTorch.
Import ListNotations.
Local Open Scope R_scope.

(** *** Pixel conditionals *)
Definition tiny : R := / 10 ^ 20.
Lemma tiny_pos : 0 < tiny.
Proof. unfold tiny. apply Rinv_0_lt_compat, pow_lt; lra. Qed.

Lemma base_flip g mean : forall x i, length x = length mean -> (i < length mean)%nat ->
  base_logprob g mean (upd i 1%nat x) - base_logprob g mean (upd i 0%nat x) = ln (nth i mean 0 + g) - ln (1 + (- nth i mean 0 + g)).
Proof.
  unfold base_logprob. induction mean as [| m mean IH]; intros [| a x] i HL Hi; cbn [length] in *; try lia.
  destruct i as [| i]; cbn [upd combine rsum nth fst snd INR].
  - ring.
  - specialize (IH x i ltac:(lia) ltac:(lia)). lra.
Qed.

Lemma pixels_binary x : Forall (fun v => (v <= 1)%nat) x -> Forall (fun v => 0 <= v <= 1) (map INR x).
Proof.
  intros H. rewrite Forall_map. eapply Forall_impl; [| exact H]. intros v Hv. cbv beta in *. destruct v as [| [| v]]; cbn [INR]; [lra | lra | lia].
Qed.
Lemma forward_value ps C H W mean x e : resnet ps C H W (map INR x) = Some e ->
  image_forward ps C H W mean None x = Some (e + match mean with Some m => base_logprob tiny m x | None => 0 end).
Proof. intros E. unfold image_forward. rewrite E. unfold ob. fold tiny. apply f_equal. destruct mean; unfold option_map, ebm_forward; [reflexivity | ring]. Qed.
Lemma forward_network ps C H W x i e0 e1 mean a b : Forall (fun v => (v <= 1)%nat) x ->
  resnet ps C H W (map INR (upd i 1%nat x)) = Some e1 -> resnet ps C H W (map INR (upd i 0%nat x)) = Some e0 ->
  image_forward ps C H W mean None (upd i 1%nat x) = Some a -> image_forward ps C H W mean None (upd i 0%nat x) = Some b ->
  - (2 * energy_bound ps) <= e1 - e0 <= 2 * energy_bound ps /\
  a - b = e1 - e0 + match mean with Some m => base_logprob tiny m (upd i 1%nat x) - base_logprob tiny m (upd i 0%nat x) | None => 0 end.
Proof.
  intros HX E1 E0 Ha Hb. split.
  - pose proof (net_bounded ps C H W _ e1 (pixels_binary _ (Forall_upd _ i 1%nat x (le_n 1) HX)) E1) as B1.
    pose proof (net_bounded ps C H W _ e0 (pixels_binary _ (Forall_upd _ i 0%nat x (le_S 0 0 (le_n 0)) HX)) E0) as B0.
    unfold Rabs in B1, B0. destruct (Rcase_abs e1), (Rcase_abs e0); lra.
  - rewrite (forward_value _ _ _ _ mean _ _ E1) in Ha. rewrite (forward_value _ _ _ _ mean _ _ E0) in Hb.
    assert (Ea : a = e1 + match mean with Some m => base_logprob tiny m (upd i 1%nat x) | None => 0 end) by congruence.
    assert (Eb : b = e0 + match mean with Some m => base_logprob tiny m (upd i 0%nat x) | None => 0 end) by congruence.
    rewrite Ea, Eb. destruct mean; ring.
Qed.
Lemma forward_some ps C H W mean beta x a : image_forward ps C H W mean beta x = Some a -> exists e, resnet ps C H W (map INR x) = Some e.
Proof. unfold image_forward. destruct (resnet ps C H W (map INR x)) as [e |]; [exists e; reflexivity | discriminate]. Qed.

Theorem pixel_odds ps C H W mean x i a b : Forall (fun v => (v <= 1)%nat) x -> length x = length mean -> (i < length mean)%nat -> 0 <= nth i mean 0 <= 1 ->
  image_forward ps C H W (Some mean) None (upd i 1%nat x) = Some a -> image_forward ps C H W (Some mean) None (upd i 0%nat x) = Some b ->
  (nth i mean 0 + tiny) / (1 - nth i mean 0 + tiny) * exp (- (2 * energy_bound ps)) <= exp a / exp b <=
  (nth i mean 0 + tiny) / (1 - nth i mean 0 + tiny) * exp (2 * energy_bound ps).
Proof.
  intros HX HL Hi Hm Ha Hb. destruct (forward_some _ _ _ _ _ _ _ _ Ha) as (e1 & E1), (forward_some _ _ _ _ _ _ _ _ Hb) as (e0 & E0).
  destruct (forward_network _ _ _ _ _ _ _ _ _ _ _ HX E1 E0 Ha Hb) as [HB HD]. cbv iota in HD. rewrite (base_flip tiny mean x i HL Hi) in HD.
  pose proof tiny_pos as HT. assert (P1 : 0 < nth i mean 0 + tiny) by lra. assert (P2 : 0 < 1 - nth i mean 0 + tiny) by lra.
  replace (1 + (- nth i mean 0 + tiny)) with (1 - nth i mean 0 + tiny) in HD by ring.
  assert (HQ : exp a / exp b = (nth i mean 0 + tiny) / (1 - nth i mean 0 + tiny) * exp (e1 - e0)).
  { unfold Rdiv. rewrite <- exp_Ropp, <- exp_plus. replace (a + - b) with (a - b) by ring. rewrite HD, exp_plus. unfold Rminus at 2. rewrite exp_plus, exp_Ropp, !exp_ln by assumption. ring. }
  rewrite HQ. assert (PQ : 0 <= (nth i mean 0 + tiny) / (1 - nth i mean 0 + tiny)) by (apply Rlt_le, Rdiv_lt_0_compat; assumption).
  split; apply Rmult_le_compat_l; try exact PQ.
  - destruct (Rle_lt_or_eq_dec _ _ (proj1 HB)) as [L | ->]; [apply Rlt_le, exp_increasing, L | apply Rle_refl].
  - destruct (Rle_lt_or_eq_dec _ _ (proj2 HB)) as [L | ->]; [apply Rlt_le, exp_increasing, L | apply Rle_refl].
Qed.

Theorem pixel_odds_plain ps C H W x i a b : Forall (fun v => (v <= 1)%nat) x ->
  image_forward ps C H W None None (upd i 1%nat x) = Some a -> image_forward ps C H W None None (upd i 0%nat x) = Some b ->
  exp (- (2 * energy_bound ps)) <= exp a / exp b <= exp (2 * energy_bound ps).
Proof.
  intros HX Ha Hb. destruct (forward_some _ _ _ _ _ _ _ _ Ha) as (e1 & E1), (forward_some _ _ _ _ _ _ _ _ Hb) as (e0 & E0).
  destruct (forward_network _ _ _ _ _ _ _ _ _ _ _ HX E1 E0 Ha Hb) as [HB HD]. cbv iota in HD. rewrite Rplus_0_r in HD.
  unfold Rdiv. rewrite <- exp_Ropp, <- exp_plus. replace (a + - b) with (e1 - e0) by lra.
  split.
  - destruct (Rle_lt_or_eq_dec _ _ (proj1 HB)) as [L | ->]; [apply Rlt_le, exp_increasing, L | apply Rle_refl].
  - destruct (Rle_lt_or_eq_dec _ _ (proj2 HB)) as [L | ->]; [apply Rlt_le, exp_increasing, L | apply Rle_refl].
Qed.

(** *** The base log-probability in rounded arithmetic *)
Theorem base_one_nan rnd : rnd (1 + tiny) = 1 -> rnd (- (1) + tiny) = - (1) -> base_pixel rnd 1 1 = NaN /\ base_pixel rnd 1 0 = NInf.
Proof.
  intros R1 R2. unfold base_pixel. fold tiny. rewrite R1, R2. unfold xlog1p. cbn [xadd]. unfold xlog.
  destruct (Rlt_dec 0 1) as [_ | ]; [| lra]. destruct (Rlt_dec 0 (1 + - (1))); [lra |]. destruct (Rlt_dec (1 + - (1)) 0); [lra |].
  cbn [xmul xadd]. split.
  - destruct (Rlt_dec 0 (1 - 1)); [lra |]. destruct (Rlt_dec (1 - 1) 0); [lra | reflexivity].
  - destruct (Rlt_dec 0 (1 - 0)); [reflexivity | lra].
Qed.
Theorem base_pixel_finite rnd m x : 0 < rnd (m + tiny) -> - (1) < rnd (- m + tiny) -> is_fin (base_pixel rnd m x).
Proof.
  intros H1 H2. unfold base_pixel. fold tiny. unfold xlog1p. cbn [xadd]. unfold xlog.
  destruct (Rlt_dec 0 (rnd (m + tiny))); [| lra]. destruct (Rlt_dec 0 (1 + rnd (- m + tiny))); [| lra]. cbn [xmul xadd]. eexists; reflexivity.
Qed.
Lemma mean_of_ones n : (1 <= n)%nat -> pixel_mean (repeat 1 n) = 1.
Proof.
  intros Hn. unfold pixel_mean. rewrite repeat_length. assert (HS : rsum (repeat 1 n) (fun v => v) = INR n).
  { clear Hn. induction n as [| n IH]; [reflexivity |]. rewrite S_INR. cbn [repeat rsum]. rewrite IH. ring. }
  rewrite HS. field. apply not_0_INR. lia.
Qed.

(** *** A network with one feature *)
Definition demo_convs : list (list string * list string * nat) :=
  (["Conv_0"], ["net"; "proj"], 3%nat)%string ::
  flat_map (fun b => [([("BasicBlock_" ++ b)%string; "Conv_0"%string], ["net"; "net"; b; "conv1"]%string, 3%nat);
                      ([("BasicBlock_" ++ b)%string; "Conv_1"%string], ["net"; "net"; b; "conv2"]%string, 3%nat)])
    ["0"; "1"; "2"; "3"; "4"; "5"; "6"; "7"]%string ++
  map (fun b => ([("BasicBlock_" ++ b)%string; "shortcut_conv"%string], ["net"; "net"; b; "shortcut_conv"]%string, 1%nat)) ["0"; "1"]%string.
Definition demo_params : params :=
  flat_map (fun c => [(fst (fst c) ++ ["kernel"%string], num_arr [snd c; snd c; 1; 1]%nat); (fst (fst c) ++ ["bias"%string], num_arr [1]%nat)]) demo_convs ++
  [(["Dense_0"; "kernel"]%string, num_arr [1; 1]%nat); (["Dense_0"; "bias"]%string, num_arr [1]%nat)].
Definition demo_checkpoint : list (list string * arr) :=
  (["mean"%string], num_arr [4]%nat) ::
  flat_map (fun c => [(snd (fst c) ++ ["weight"%string], num_arr [1; 1; snd c; snd c]%nat); (snd (fst c) ++ ["bias"%string], num_arr [1]%nat)]) demo_convs ++
  [(["net"; "energy_linear"; "weight"]%string, num_arr [1; 1]%nat); (["net"; "energy_linear"; "bias"]%string, num_arr [1]%nat)].

Fixpoint nodupb (l : list (list string)) : bool :=
  match l with [] => true | a :: l' => negb (existsb (key_eqb a) l') && nodupb l' end.
Lemma nodupb_ok l : nodupb l = true -> NoDup l.
Proof.
  induction l as [| a l IH]; [constructor |]. cbn. intros H. apply andb_true_iff in H. destruct H as [H1 H2]. constructor; [| apply IH, H2].
  intros Hi. apply negb_true_iff in H1. assert (E : existsb (key_eqb a) l = true) by (apply existsb_exists; exists a; split; [exact Hi | destruct (key_eqb_spec a a); congruence]). congruence.
Qed.
Lemma demo_params_nodup : NoDup (map fst demo_params).
Proof. apply nodupb_ok. vm_compute. reflexivity. Qed.
Lemma demo_checkpoint_nodup : NoDup (map fst demo_checkpoint).
Proof. apply nodupb_ok. vm_compute. reflexivity. Qed.
Lemma demo_names : Forall torch_name (map fst demo_checkpoint).
Proof.
  cbn [demo_checkpoint demo_convs flat_map map fst snd app String.append]. repeat (apply Forall_cons; [constructor; cbn [In]; tauto |]). apply Forall_nil.
Qed.
Lemma demo_converts : exists ps' m, convert demo_checkpoint demo_params = Some (ps', m).
Proof. do 2 eexists. reflexivity. Qed.
Lemma demo_shapes : net_shapes demo_params 1.
Proof.
  assert (G : forall k s, option_map shape (lookup k demo_params) = Some s -> has demo_params k s).
  { intros k s. unfold has. destruct (lookup k demo_params) as [a |]; [| discriminate]. cbn. intros [= E]. exists a. auto. }
  unfold net_shapes, conv_shape. split; [split; apply G; reflexivity |]. split; [| split; [| split; apply G; reflexivity]].
  - intros b Hb. cbn [In] in Hb. repeat (destruct Hb as [<- | Hb]; [repeat split; apply G; reflexivity |]). contradiction.
  - intros b Hb. cbn [In] in Hb. repeat (destruct Hb as [<- | Hb]; [split; apply G; reflexivity |]). contradiction.
Qed.
