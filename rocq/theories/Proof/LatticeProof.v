(** Lattice models: proofs. *)
From Coq Require Import Reals List Lra Lia Arith ZArith.
From Verif.Base Require Import RSum.
From Verif.Spec Require Import Grid.
From Verif.Model Require Import Lattice.
Import ListNotations.
Local Open Scope R_scope.

(** ** Sums over grids *)
Lemma sum2_ext h w f g : (forall i j, (i < h)%nat -> (j < w)%nat -> f i j = g i j) -> sum2 h w f = sum2 h w g.
Proof.
  intros H. apply rsum_ext. intros i Hi. apply rsum_ext. intros j Hj. apply in_seq in Hi, Hj. apply H; lia.
Qed.
Lemma sum2_plus h w f g : sum2 h w (fun i j => f i j + g i j) = sum2 h w f + sum2 h w g.
Proof. unfold sum2. rewrite <- rsum_plus. apply rsum_ext. intros i _. apply rsum_plus. Qed.
Lemma sum2_scal h w c f : sum2 h w (fun i j => c * f i j) = c * sum2 h w f.
Proof. unfold sum2. rewrite <- rsum_scal. apply rsum_ext. intros i _. apply rsum_scal. Qed.
Lemma sum2_cells h w f : rsum (cells h w) f = sum2 h w (fun i j => f (i, j)).
Proof. apply rsum_list_prod. Qed.

Lemma sum2_swap h w f : sum2 h w f = sum2 w h (fun j i => f i j).
Proof. apply rsum_swap. Qed.

(** A sum over the rows but the last, seen from the upper or from the lower row. *)
Lemma rsum_seq_ltb n (f : nat -> R) : rsum (seq 0 n) (fun i => if Nat.ltb i (n - 1) then f i else 0) = rsum (seq 0 (n - 1)) f.
Proof.
  destruct n as [|n]; [reflexivity|]. replace (S n - 1)%nat with n by lia.
  rewrite seq_S, rsum_app. cbn [rsum Nat.add]. rewrite Nat.ltb_irrefl, !Rplus_0_r. apply rsum_ext. intros i Hi. apply in_seq in Hi.
  destruct (Nat.ltb_spec i n); [reflexivity|lia].
Qed.
Lemma rsum_seq_ltb0 n (f : nat -> R) : rsum (seq 0 n) (fun i => if Nat.ltb 0 i then f (i - 1)%nat else 0) = rsum (seq 0 (n - 1)) f.
Proof.
  destruct n as [|n]; [reflexivity|]. replace (S n - 1)%nat with n by lia. cbn [seq rsum]. rewrite Rplus_0_l.
  rewrite <- seq_shift, rsum_map. apply rsum_ext. intros i _. cbn [Nat.ltb Nat.leb]. f_equal. lia.
Qed.

Lemma rsum_eqb (n k : nat) (f : nat -> R) : rsum (seq 0 n) (fun i => if Nat.eqb i k then f i else 0) = if Nat.ltb k n then f k else 0.
Proof.
  destruct (Nat.ltb_spec k n) as [Hk|Hk].
  - rewrite (rsum_single (seq 0 n) _ k).
    + rewrite Nat.eqb_refl. reflexivity.
    + apply seq_NoDup.
    + apply in_seq. lia.
    + intros b _ Hb. destruct (Nat.eqb_spec b k); congruence.
  - apply rsum_const0. intros i Hi. apply in_seq in Hi. destruct (Nat.eqb_spec i k); [lia|reflexivity].
Qed.

Lemma rsum_v_edges h w (F : (nat * nat) * (nat * nat) -> R) :
  rsum (v_edges h w) F = rsum (seq 0 (h - 1)) (fun i => rsum (seq 0 w) (fun j => F ((i, j), (S i, j)))).
Proof.
  unfold v_edges. rewrite rsum_filter, rsum_list_prod. unfold cells. rewrite rsum_list_prod.
  rewrite <- rsum_seq_ltb. apply rsum_ext. intros i Hi. apply in_seq in Hi.
  transitivity (rsum (seq 0 w) (fun j => if Nat.ltb i (h - 1) then F ((i, j), (S i, j)) else 0)).
  - apply rsum_ext. intros j Hj. apply in_seq in Hj. rewrite rsum_list_prod. cbn [fst snd].
    transitivity (rsum (seq 0 h) (fun i' => if Nat.eqb i' (S i) then F ((i, j), (i', j)) else 0)).
    + apply rsum_ext. intros i' _. unfold below. cbn [fst snd]. destruct (Nat.eqb_spec i' (S i)); cbn [andb].
      * rewrite (rsum_eqb w j (fun j' => F ((i, j), (i', j')))). destruct (Nat.ltb_spec j w); [reflexivity|lia].
      * apply rsum_const0. reflexivity.
    + rewrite (rsum_eqb h (S i) (fun i' => F ((i, j), (i', j)))).
      destruct (Nat.ltb_spec (S i) h); destruct (Nat.ltb_spec i (h - 1)); try lia; reflexivity.
  - destruct (Nat.ltb i (h - 1)); [reflexivity|]. apply rsum_const0. reflexivity.
Qed.

Lemma rsum_h_edges h w (F : (nat * nat) * (nat * nat) -> R) :
  rsum (h_edges h w) F = rsum (seq 0 h) (fun i => rsum (seq 0 (w - 1)) (fun j => F ((i, j), (i, S j)))).
Proof.
  unfold h_edges. rewrite rsum_filter, rsum_list_prod. unfold cells. rewrite rsum_list_prod.
  apply rsum_ext. intros i Hi. apply in_seq in Hi. rewrite <- rsum_seq_ltb. apply rsum_ext. intros j Hj. apply in_seq in Hj.
  rewrite rsum_list_prod. cbn [fst snd].
  transitivity (rsum (seq 0 h) (fun i' => if Nat.eqb i' i then (if Nat.ltb j (w - 1) then F ((i, j), (i', S j)) else 0) else 0)).
  - apply rsum_ext. intros i' _. unfold right_of. cbn [fst snd]. destruct (Nat.eqb_spec i' i); cbn [andb].
    + rewrite (rsum_eqb w (S j) (fun j' => F ((i, j), (i', j')))).
      destruct (Nat.ltb_spec (S j) w); destruct (Nat.ltb_spec j (w - 1)); try lia; reflexivity.
    + apply rsum_const0. reflexivity.
  - rewrite (rsum_eqb h i (fun i' => if Nat.ltb j (w - 1) then F ((i, j), (i', S j)) else 0)).
    destruct (Nat.ltb_spec i h); [reflexivity|lia].
Qed.

(** ** Ising *)
Lemma ising_message_float h w wh wv x i j :
  ising_message as_float h w wh wv x i j =
    (if Nat.ltb i (h - 1) then (2 * x (S i) j - 1) * wv i j else 0)
    + (if Nat.ltb 0 i then (2 * x (i - 1)%nat j - 1) * wv (i - 1)%nat j else 0)
    + (if Nat.ltb j (w - 1) then (2 * x i (S j) - 1) * wh i j else 0)
    + (if Nat.ltb 0 j then (2 * x i (j - 1)%nat - 1) * wh i (j - 1)%nat else 0).
Proof.
  unfold ising_message, set_at, as_float.
  destruct (Nat.ltb i (h - 1)), (Nat.ltb 0 i), (Nat.ltb j (w - 1)), (Nat.ltb 0 j); ring.
Qed.

(** Pairing the two directions of an edge. *)
Lemma pair_rows h w (s : arr2) (wv : arr2) :
  sum2 h w (fun i j => s i j * ((if Nat.ltb i (h - 1) then s (S i) j * wv i j else 0) + (if Nat.ltb 0 i then s (i - 1)%nat j * wv (i - 1)%nat j else 0)))
  = 2 * rsum (seq 0 (h - 1)) (fun i => rsum (seq 0 w) (fun j => wv i j * (s i j * s (S i) j))).
Proof.
  rewrite sum2_swap. unfold sum2.
  transitivity (rsum (seq 0 w) (fun j => 2 * rsum (seq 0 (h - 1)) (fun i => wv i j * (s i j * s (S i) j)))).
  - apply rsum_ext. intros j _.
    transitivity (rsum (seq 0 h) (fun i => (if Nat.ltb i (h - 1) then wv i j * (s i j * s (S i) j) else 0)
                                         + (if Nat.ltb 0 i then wv (i - 1)%nat j * (s (i - 1)%nat j * s (S (i - 1)) j) else 0))).
    + apply rsum_ext. intros i _. destruct (Nat.ltb i (h - 1)); destruct (Nat.ltb_spec 0 i) as [Hi|Hi]; try ring;
        replace (S (i - 1)) with i by lia; ring.
    + rewrite rsum_plus, rsum_seq_ltb, (rsum_seq_ltb0 h (fun i => wv i j * (s i j * s (S i) j))). ring.
  - rewrite rsum_scal. f_equal. apply rsum_swap.
Qed.

Lemma pair_cols h w (s : arr2) (wh : arr2) :
  sum2 h w (fun i j => s i j * ((if Nat.ltb j (w - 1) then s i (S j) * wh i j else 0) + (if Nat.ltb 0 j then s i (j - 1)%nat * wh i (j - 1)%nat else 0)))
  = 2 * rsum (seq 0 h) (fun i => rsum (seq 0 (w - 1)) (fun j => wh i j * (s i j * s i (S j)))).
Proof.
  rewrite sum2_swap, (pair_rows w h (fun i j => s j i) (fun i j => wh j i)). f_equal. apply rsum_swap.
Qed.

Theorem ising_float_spec h w wh wv b x :
  ising_forward as_float h w wh wv b x =
  let s := fun c : nat * nat => 2 * x (fst c) (snd c) - 1 in
  grid_energy h w (fun c => b (fst c) (snd c) * s c)
              (fun a c => wv (fst a) (snd a) * (s a * s c)) (fun a c => wh (fst a) (snd a) * (s a * s c)).
Proof.
  cbv zeta. unfold ising_forward, grid_energy. f_equal. rewrite rsum_v_edges, rsum_h_edges, sum2_cells. cbn [fst snd].
  set (s := fun i j => 2 * x i j - 1).
  transitivity (sum2 h w (fun i j => b i j * s i j) +
    (/ 2 * sum2 h w (fun i j => s i j * ((if Nat.ltb i (h - 1) then s (S i) j * wv i j else 0) + (if Nat.ltb 0 i then s (i - 1)%nat j * wv (i - 1)%nat j else 0)))
     + / 2 * sum2 h w (fun i j => s i j * ((if Nat.ltb j (w - 1) then s i (S j) * wh i j else 0) + (if Nat.ltb 0 j then s i (j - 1)%nat * wh i (j - 1)%nat else 0))))).
  - rewrite <- !sum2_scal, <- !sum2_plus. apply sum2_ext. intros i j _ _. rewrite ising_message_float. unfold s. field.
  - rewrite pair_rows, pair_cols. unfold s. field.
Qed.

(** Integer samples: every write truncates. *)
Lemma trunc_small r : -1 < r < 1 -> trunc r = 0%Z.
Proof.
  intros Hr. unfold trunc. destruct (Rle_dec 0 r) as [H|H].
  - destruct (base_Int_part r) as [H1 H2]. 
    assert (IZR (Int_part r) < 1) by lra. assert (-1 < IZR (Int_part r)) by lra.
    change (-1) with (IZR (-1)) in *. change 1 with (IZR 1) in *. apply lt_IZR in H0, H3. lia.
  - destruct (base_Int_part (- r)) as [H1 H2].
    assert (H0 : IZR (Int_part (- r)) < 1) by lra. assert (H3 : -1 < IZR (Int_part (- r))) by lra.
    change (-1) with (IZR (-1)) in *. change 1 with (IZR 1) in *. apply lt_IZR in H0, H3. lia.
Qed.


Lemma of_bits_spin x i j : binary x -> 2 * of_bits x i j - 1 = 1 \/ 2 * of_bits x i j - 1 = -1.
Proof.
  intros H. specialize (H i j). unfold of_bits. destruct (x i j) as [|[|n]]; [right|left|lia]; simpl; lra.
Qed.

Lemma as_int_small wgt s : Rabs wgt < 1 -> s = 1 \/ s = -1 -> as_int (0 + s * wgt) = 0.
Proof.
  intros Hw Hs. unfold as_int. rewrite trunc_small; [reflexivity|]. apply Rabs_def2 in Hw. destruct Hs as [-> | ->]; lra.
Qed.

Lemma ising_message_int h w wh wv x i j : binary x -> (forall i j, Rabs (wh i j) < 1) -> (forall i j, Rabs (wv i j) < 1) ->
  ising_message as_int h w wh wv (of_bits x) i j = 0.
Proof.
  intros Hx Hh Hv. unfold ising_message, set_at.
  assert (Hs := fun i j => of_bits_spin x i j Hx).
  destruct (Nat.ltb i (h - 1)), (Nat.ltb 0 i), (Nat.ltb j (w - 1)), (Nat.ltb 0 j);
    repeat (first [rewrite as_int_small by auto | reflexivity]).
Qed.

Theorem ising_int_spec h w wh wv b x : binary x -> (forall i j, Rabs (wh i j) < 1) -> (forall i j, Rabs (wv i j) < 1) ->
  ising_forward as_int h w wh wv b (of_bits x) =
  grid_energy h w (fun c => b (fst c) (snd c) * (2 * INR (x (fst c) (snd c)) - 1)) (fun _ _ => 0) (fun _ _ => 0).
Proof.
  intros Hx Hh Hv. unfold ising_forward, grid_energy. f_equal. rewrite (rsum_const0 (v_edges h w)), (rsum_const0 (h_edges h w)) by reflexivity.
  rewrite sum2_cells, !Rplus_0_r. cbn [fst snd]. apply sum2_ext. intros i j _ _. rewrite ising_message_int by auto. unfold of_bits. field.
Qed.

(** With integral couplings nothing is lost. *)
Lemma Int_part_IZR z : Int_part (IZR z) = z.
Proof.
  destruct (base_Int_part (IZR z)) as [H1 H2]. apply le_IZR in H1.
  assert (H3 : IZR z < IZR (Int_part (IZR z) + 1)) by (rewrite plus_IZR; lra). apply lt_IZR in H3. lia.
Qed.

Lemma as_int_IZR z : as_int (IZR z) = IZR z.
Proof.
  unfold as_int, trunc. f_equal. destruct (Rle_dec 0 (IZR z)).
  - apply Int_part_IZR.
  - rewrite <- opp_IZR, Int_part_IZR. lia.
Qed.

Lemma as_int_sum s z m : s = 1 \/ s = -1 -> as_int (IZR m + s * IZR z) = IZR m + s * IZR z /\ exists k, IZR m + s * IZR z = IZR k.
Proof.
  intros [-> | ->].
  - replace (IZR m + 1 * IZR z) with (IZR (m + z)) by (rewrite plus_IZR; ring). split; [apply as_int_IZR|eauto].
  - replace (IZR m + -1 * IZR z) with (IZR (m - z)) by (rewrite minus_IZR; ring). split; [apply as_int_IZR|eauto].
Qed.

Theorem ising_int_integral h w (zh zv : nat -> nat -> Z) b x : binary x ->
  ising_forward as_int h w (fun i j => IZR (zh i j)) (fun i j => IZR (zv i j)) b (of_bits x)
  = ising_forward as_float h w (fun i j => IZR (zh i j)) (fun i j => IZR (zv i j)) b (of_bits x).
Proof.
  intros Hx. unfold ising_forward. f_equal. apply sum2_ext. intros i j _ _. do 3 f_equal.
  unfold ising_message, set_at, as_float.
  assert (Hs := fun i j => of_bits_spin x i j Hx).
  assert (Hstep : forall (c : bool) m s z, s = 1 \/ s = -1 -> (exists k, m = IZR k) ->
     (if c then as_int (m + s * IZR z) else m) = (if c then m + s * IZR z else m) /\ exists k, (if c then m + s * IZR z else m) = IZR k).
  { intros c m s z Hs' (k & ->). destruct c; [apply as_int_sum; auto|eauto]. }
  destruct (Hstep (Nat.ltb i (h - 1)) 0 (2 * of_bits x (S i) j - 1) (zv i j) (Hs _ _) (ex_intro _ 0%Z eq_refl)) as [E1 K1].
  rewrite E1. match type of K1 with exists k, ?m = _ => set (m1 := m) in * end.
  destruct (Hstep (Nat.ltb 0 i) m1 (2 * of_bits x (i - 1)%nat j - 1) (zv (i - 1)%nat j) (Hs _ _) K1) as [E2 K2].
  rewrite E2. match type of K2 with exists k, ?m = _ => set (m2 := m) in * end.
  destruct (Hstep (Nat.ltb j (w - 1)) m2 (2 * of_bits x i (S j) - 1) (zh i j) (Hs _ _) K2) as [E3 K3].
  rewrite E3. match type of K3 with exists k, ?m = _ => set (m3 := m) in * end.
  destruct (Hstep (Nat.ltb 0 j) m3 (2 * of_bits x i (j - 1)%nat - 1) (zh i (j - 1)%nat) (Hs _ _) K3) as [E4 _].
  exact E4.
Qed.

(** ** Potts *)
Lemma potts_message_float h w wh wv x i j c :
  potts_message as_float h w wh wv x i j c =
    ((if Nat.ltb i (h - 1) then x (S i) j c * wv i j c else 0)
     + (if Nat.ltb 0 i then x (i - 1)%nat j c * wv (i - 1)%nat j c else 0))
    + ((if Nat.ltb j (w - 1) then x i (S j) c * wh i j c else 0)
       + (if Nat.ltb 0 j then x i (j - 1)%nat c * wh i (j - 1)%nat c else 0)).
Proof.
  unfold potts_message, set_at3, as_float.
  destruct (Nat.ltb i (h - 1)), (Nat.ltb 0 i), (Nat.ltb j (w - 1)), (Nat.ltb 0 j); ring.
Qed.

Lemma rsum_rot {A B D} (la : list A) (lb : list B) (lc : list D) (F : A -> B -> D -> R) :
  rsum lc (fun c => rsum la (fun i => rsum lb (fun j => F i j c))) = rsum la (fun i => rsum lb (fun j => rsum lc (fun c => F i j c))).
Proof. rewrite rsum_swap. apply rsum_ext. intros i _. apply rsum_swap. Qed.

(** Any array (not only one-hot). *)
Theorem potts_onehot_spec h w C wh wv b x :
  potts_forward_onehot as_float h w C wh wv b x =
  grid_energy h w (fun a => rsum (seq 0 C) (fun c => b (fst a) (snd a) c * x (fst a) (snd a) c))
    (fun a a' => rsum (seq 0 C) (fun c => wv (fst a) (snd a) c * (x (fst a) (snd a) c * x (fst a') (snd a') c)))
    (fun a a' => rsum (seq 0 C) (fun c => wh (fst a) (snd a) c * (x (fst a) (snd a) c * x (fst a') (snd a') c))).
Proof.
  unfold potts_forward_onehot, grid_energy. f_equal. rewrite rsum_v_edges, rsum_h_edges, sum2_cells. cbn [fst snd].
  transitivity (rsum (seq 0 C) (fun c => sum2 h w (fun i j => x i j c * (potts_message as_float h w wh wv x i j c / 2 + b i j c)))).
  { unfold sum2. symmetry. apply (rsum_rot (seq 0 h) (seq 0 w) (seq 0 C) (fun i j c => x i j c * (potts_message as_float h w wh wv x i j c / 2 + b i j c))). }
  transitivity (rsum (seq 0 C) (fun c => sum2 h w (fun i j => b i j c * x i j c)
      + rsum (seq 0 (h - 1)) (fun i => rsum (seq 0 w) (fun j => wv i j c * (x i j c * x (S i) j c)))
      + rsum (seq 0 h) (fun i => rsum (seq 0 (w - 1)) (fun j => wh i j c * (x i j c * x i (S j) c))))).
  - apply rsum_ext. intros c _.
    pose proof (pair_rows h w (fun i j => x i j c) (fun i j => wv i j c)) as H1.
    pose proof (pair_cols h w (fun i j => x i j c) (fun i j => wh i j c)) as H2. cbv beta in H1, H2.
    apply (f_equal (Rmult (/ 2))) in H1. apply (f_equal (Rmult (/ 2))) in H2.
    rewrite <- Rmult_assoc, Rinv_l, Rmult_1_l in H1 by lra. rewrite <- Rmult_assoc, Rinv_l, Rmult_1_l in H2 by lra.
    rewrite <- H1, <- H2. rewrite <- !sum2_scal, <- !sum2_plus. apply sum2_ext. intros i j _ _. rewrite potts_message_float. field.
  - rewrite !rsum_plus. unfold sum2. f_equal; [f_equal|].
    + apply (rsum_rot (seq 0 h) (seq 0 w) (seq 0 C) (fun i j c => b i j c * x i j c)).
    + apply (rsum_rot (seq 0 (h - 1)) (seq 0 w) (seq 0 C) (fun i j c => wv i j c * (x i j c * x (S i) j c))).
    + apply (rsum_rot (seq 0 h) (seq 0 (w - 1)) (seq 0 C) (fun i j c => wh i j c * (x i j c * x i (S j) c))).
Qed.

Lemma rsum_v_edges_ext h w F G : (forall i j, (S i < h)%nat -> (j < w)%nat -> F ((i, j), (S i, j)) = G ((i, j), (S i, j))) ->
  rsum (v_edges h w) F = rsum (v_edges h w) G.
Proof.
  intros H. rewrite !rsum_v_edges. apply rsum_ext. intros i Hi. apply rsum_ext. intros j Hj. apply in_seq in Hi, Hj. apply H; lia.
Qed.
Lemma rsum_h_edges_ext h w F G : (forall i j, (i < h)%nat -> (S j < w)%nat -> F ((i, j), (i, S j)) = G ((i, j), (i, S j))) ->
  rsum (h_edges h w) F = rsum (h_edges h w) G.
Proof.
  intros H. rewrite !rsum_h_edges. apply rsum_ext. intros i Hi. apply rsum_ext. intros j Hj. apply in_seq in Hi, Hj. apply H; lia.
Qed.

Lemma onehot_sum C k (F : nat -> R) : (k < C)%nat -> rsum (seq 0 C) (fun c => F c * (if Nat.eqb k c then 1 else 0)) = F k.
Proof.
  intros Hk. rewrite (rsum_ext _ _ (fun c => if Nat.eqb c k then F c else 0)).
  - rewrite (rsum_eqb C k F). destruct (Nat.ltb_spec k C); [reflexivity|lia].
  - intros c _. rewrite (Nat.eqb_sym k c). destruct (Nat.eqb c k); ring.
Qed.

Theorem potts_spec h w C wh wv b x : (forall i j, (i < h)%nat -> (j < w)%nat -> (x i j < C)%nat) ->
  potts_forward h w C wh wv b x =
  let v := fun a : nat * nat => x (fst a) (snd a) in
  grid_energy h w (fun a => b (fst a) (snd a) (v a))
    (fun a a' => if Nat.eqb (v a) (v a') then wv (fst a) (snd a) (v a) else 0)
    (fun a a' => if Nat.eqb (v a) (v a') then wh (fst a) (snd a) (v a) else 0).
Proof.
  intros Hx. cbv zeta. unfold potts_forward. rewrite potts_onehot_spec. unfold grid_energy. f_equal.
  assert (He : forall (W : nat -> R) k k', (k < C)%nat ->
    rsum (seq 0 C) (fun c => W c * ((if Nat.eqb k c then 1 else 0) * (if Nat.eqb k' c then 1 else 0))) = if Nat.eqb k k' then W k else 0).
  { intros W k k' Hk.
    rewrite (rsum_ext _ _ (fun c => (W c * (if Nat.eqb k' c then 1 else 0)) * (if Nat.eqb k c then 1 else 0))) by (intros; ring).
    rewrite (onehot_sum C k (fun c => W c * (if Nat.eqb k' c then 1 else 0))) by auto. rewrite (Nat.eqb_sym k' k).
    destruct (Nat.eqb k k'); ring. }
  f_equal; [f_equal|].
  - rewrite !sum2_cells. apply sum2_ext. intros i j Hi Hj. cbn [fst snd]. unfold one_hot2.
    apply (onehot_sum C (x i j) (fun c => b i j c)). auto.
  - apply rsum_v_edges_ext. intros i j Hi Hj. cbn [fst snd]. unfold one_hot2. apply (He (fun c => wv i j c)). apply Hx; lia.
  - apply rsum_h_edges_ext. intros i j Hi Hj. cbn [fst snd]. unfold one_hot2. apply (He (fun c => wh i j c)). apply Hx; lia.
Qed.
