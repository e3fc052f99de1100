(** Proofs about the image data sets. *)
From Coq Require Import String ZArith Reals List Lra Lia Arith Permutation.
From Verif.Base Require Import RSum Dist.
From Verif.Spec Require Import Datasets.
From Verif.Model Require Import Datasets RBM.
From Verif.Proof Require Import PathAuxCatProof LearningProof.
Import ListNotations.
Local Open Scope R_scope.

(** ** Slices *)
Lemma split_at {A} (l : list A) k : firstn k l ++ skipn k l = l.
Proof. apply firstn_skipn. Qed.

Lemma upto_from {A} (l : list A) n : py_upto l n ++ py_from l n = l.
Proof. unfold py_upto, py_from. apply split_at. Qed.

Lemma py_bound_neg len n : (0 < n)%Z -> py_bound len (- n) = (len - Z.to_nat n)%nat.
Proof. intros Hn. unfold py_bound. destruct (Z.ltb_spec (- n) 0); lia. Qed.
Lemma py_bound_pos len n : (0 <= n)%Z -> py_bound len n = Nat.min len (Z.to_nat n).
Proof. intros Hn. unfold py_bound. destruct (Z.ltb_spec n 0); lia. Qed.

Lemma slice_0 {A} (l : list A) b : (0 <= b)%Z -> py_slice l 0 b = firstn (Z.to_nat b) l.
Proof.
  intros Hb. unfold py_slice. rewrite !py_bound_pos by lia. rewrite Nat.min_0_r. cbn [skipn]. rewrite Nat.sub_0_r.
  destruct (Nat.le_gt_cases (length l) (Z.to_nat b)) as [H | H]; [rewrite Nat.min_l by exact H; rewrite !firstn_all2 by lia; reflexivity | rewrite Nat.min_r by lia; reflexivity].
Qed.
Lemma slice_end {A} (l : list A) a b : (0 <= a)%Z -> (a <= b)%Z -> (length l <= Z.to_nat b)%nat -> py_slice l a b = skipn (Z.to_nat a) l.
Proof.
  intros Ha Hab Hl. unfold py_slice. rewrite !py_bound_pos by lia. rewrite (Nat.min_l (length l) (Z.to_nat b)) by exact Hl.
  destruct (Nat.le_gt_cases (length l) (Z.to_nat a)) as [H | H].
  - rewrite Nat.min_l by exact H. rewrite (skipn_all2 l H), skipn_all, firstn_nil. reflexivity.
  - rewrite Nat.min_r by lia. apply firstn_all2. rewrite skipn_length. lia.
Qed.
Lemma slice_mid {A} (l : list A) a b : (0 <= a)%Z -> (a <= b)%Z -> (Z.to_nat b <= length l)%nat -> py_slice l a b = firstn (Z.to_nat (b - a)) (skipn (Z.to_nat a) l).
Proof. intros Ha Hab Hl. unfold py_slice. rewrite !py_bound_pos by lia. rewrite !Nat.min_r by lia. f_equal. lia. Qed.

Lemma in_firstn_in {A} (l : list A) k x : In x (firstn k l) -> In x l.
Proof. intros H. rewrite <- (firstn_skipn k l). apply in_or_app. left. exact H. Qed.
Lemma in_skipn_firstn {A} (l : list A) j k x : In x (firstn j (skipn k l)) -> In x l.
Proof. intros H. apply in_firstn_in in H. rewrite <- (firstn_skipn k l). apply in_or_app. right. exact H. Qed.

Lemma skipn_add {A} (l : list A) a b : skipn a (skipn b l) = skipn (a + b) l.
Proof. revert b. induction l as [| x l IH]; intros b; [rewrite !skipn_nil; reflexivity |]. destruct b as [| b]; [rewrite Nat.add_0_r; reflexivity |]. rewrite Nat.add_succ_r. cbn [skipn]. apply IH. Qed.

(** ** Reshaping *)
Lemma reshape_F_spec N A x n i j : (n < N)%nat -> (i < A)%nat -> reshape_F N A x n (i + A * j) = x n i j.
Proof.
  intros Hn Hi. unfold reshape_F.
  assert (H1 : ((n + N * (i + A * j)) mod N = n)%nat) by (rewrite (Nat.mul_comm N), Nat.mod_add by lia; apply Nat.mod_small; exact Hn).
  assert (H2 : ((n + N * (i + A * j)) / N = i + A * j)%nat) by (rewrite (Nat.mul_comm N), Nat.div_add by lia; rewrite (Nat.div_small n N) by exact Hn; lia).
  rewrite H1, <- Nat.div_div by lia. rewrite H2.
  assert (H3 : ((i + A * j) mod A = i)%nat) by (rewrite (Nat.mul_comm A), Nat.mod_add by lia; apply Nat.mod_small; exact Hi).
  assert (H4 : ((i + A * j) / A = j)%nat) by (rewrite (Nat.mul_comm A), Nat.div_add by lia; rewrite (Nat.div_small i A) by exact Hi; lia).
  rewrite H3, H4. reflexivity.
Qed.

Lemma reshape_length s xs : length (reshape_data s xs) = length xs.
Proof. unfold reshape_data. rewrite map_length, seq_length. reflexivity. Qed.

Lemma reshape_row s xs n : (n < length xs)%nat -> nth n (reshape_data s xs) [] =
  map (reshape_F (length xs) s (fun n i j => nth (s * i + j) (nth n xs []) 0) n) (seq 0 (s * s)).
Proof.
  intros Hn. unfold reshape_data. rewrite (nth_indep _ [] ((fun n => map (reshape_F (length xs) s (fun n i j => nth (s * i + j) (nth n xs []) 0) n) (seq 0 (s * s))) 0%nat)) by (rewrite map_length, seq_length; exact Hn).
  rewrite (map_nth (fun n => map (reshape_F (length xs) s (fun n i j => nth (s * i + j) (nth n xs []) 0) n) (seq 0 (s * s)))). rewrite seq_nth by exact Hn. reflexivity.
Qed.

Theorem reshape_transposes s xs n i j : (n < length xs)%nat -> (i < s)%nat -> (j < s)%nat ->
  nth (i + s * j) (nth n (reshape_data s xs) []) 0 = nth (s * i + j) (nth n xs []) 0.
Proof.
  intros Hn Hi Hj. rewrite reshape_row by exact Hn.
  assert (Hk : (i + s * j < s * s)%nat) by nia.
  set (g := reshape_F (length xs) s (fun n i j => nth (s * i + j) (nth n xs []) 0) n).
  rewrite (nth_indep _ 0 (g 0%nat)) by (rewrite map_length, seq_length; exact Hk). rewrite (map_nth g), seq_nth by exact Hk. cbn [plus].
  unfold g. rewrite reshape_F_spec by assumption. reflexivity.
Qed.

Lemma reshape_shape s xs n : (n < length xs)%nat -> length (nth n (reshape_data s xs) []) = (s * s)%nat.
Proof. intros Hn. rewrite reshape_row by exact Hn. rewrite map_length, seq_length. reflexivity. Qed.

(** Every pixel after reshaping is a pixel of the same image, and the other way round. *)
Lemma reshape_pixels s xs n v : (0 < s)%nat -> (n < length xs)%nat -> length (nth n xs []) = (s * s)%nat ->
  (In v (nth n (reshape_data s xs) []) <-> In v (nth n xs [])).
Proof.
  intros Hs Hn Hl. split; intros Hv.
  - apply (In_nth _ _ 0) in Hv. destruct Hv as (k & Hk & <-). rewrite reshape_shape in Hk by exact Hn.
    assert (Hk' : k = (k mod s + s * (k / s))%nat) by (pose proof (Nat.div_mod k s ltac:(lia)); lia).
    assert (Hd : (k / s < s)%nat) by (apply Nat.div_lt_upper_bound; lia). assert (Hm : (k mod s < s)%nat) by (apply Nat.mod_upper_bound; lia).
    rewrite Hk', reshape_transposes by assumption. apply nth_In. rewrite Hl. nia.
  - apply (In_nth _ _ 0) in Hv. destruct Hv as (k & Hk & <-). rewrite Hl in Hk.
    assert (Hk' : k = (s * (k / s) + k mod s)%nat) by (apply Nat.div_mod; lia).
    assert (Hd : (k / s < s)%nat) by (apply Nat.div_lt_upper_bound; lia). assert (Hm : (k mod s < s)%nat) by (apply Nat.mod_upper_bound; lia).
    rewrite Hk', <- reshape_transposes with (xs := xs) by assumption. apply nth_In. rewrite reshape_shape by exact Hn. nia.
Qed.

Lemma reshape_all (P : R -> Prop) s xs : (0 < s)%nat -> (forall x, In x xs -> length x = (s * s)%nat) ->
  (forall x v, In x xs -> In v x -> P v) -> forall x v, In x (reshape_data s xs) -> In v x -> P v.
Proof.
  intros Hs Hl HP x v Hx Hv. apply (In_nth _ _ []) in Hx. destruct Hx as (n & Hn & <-). rewrite reshape_length in Hn.
  assert (Hin : In (nth n xs []) xs) by (apply nth_In; exact Hn). apply (HP (nth n xs [])); [exact Hin |]. apply (reshape_pixels s xs n v Hs Hn (Hl _ Hin)). exact Hv.
Qed.

(** ** Binarisation *)
Lemma binarize_support x y w : In (y, w) (binarize x) -> length y = length x /\ forall v, In v y -> v = 0 \/ v = 1.
Proof.
  revert y w. induction x as [| p x IH]; intros y w Hy; unfold binarize in *; cbn [map indep] in Hy.
  - destruct Hy as [Hy | []]. injection Hy as <- _. split; [reflexivity | intros v []].
  - unfold bind in Hy. apply in_flat_map in Hy. destruct Hy as ([a u] & Ha & Hy). apply in_map_iff in Hy. destruct Hy as ([z q] & Heq & Hz). cbn [fst snd] in *. injection Heq as -> _.
    unfold dmap at 1 in Hz. apply in_map_iff in Hz. destruct Hz as ([z' q'] & Heq & Hz). cbn [fst snd] in Heq. injection Heq as <- _. destruct (IH z' q' Hz) as [H1 H2].
    split; [cbn [length]; lia |]. intros v [<- | Hv]; [| exact (H2 v Hv)]. unfold dmap in Ha. apply in_map_iff in Ha. destruct Ha as ([b r] & Heq & _). cbn [fst snd] in Heq.
    injection Heq as <- _. destruct b; auto.
Qed.

Lemma indep_support {A} (ds : list (dist A)) l w : In (l, w) (indep ds) -> Forall2 (fun d a => exists q, In (a, q) d) ds l.
Proof.
  revert l w. induction ds as [| d ds IH]; intros l w Hl; cbn [indep] in Hl.
  - destruct Hl as [Hl | []]. injection Hl as <- _. constructor.
  - unfold bind in Hl. apply in_flat_map in Hl. destruct Hl as ([a u] & Ha & Hl). apply in_map_iff in Hl. destruct Hl as ([z q] & Heq & Hz). cbn [fst snd] in *. injection Heq as -> _.
    unfold dmap in Hz. apply in_map_iff in Hz. destruct Hz as ([z' q'] & Heq & Hz). cbn [fst snd] in Heq. injection Heq as <- _. constructor; [exists u; exact Ha | exact (IH z' q' Hz)].
Qed.

Lemma binarize_all_support xs ys w : In (ys, w) (binarize_all xs) -> length ys = length xs /\ binary_images ys.
Proof.
  intros H. apply indep_support in H. revert ys H. induction xs as [| x xs IH]; intros ys H; inversion H as [| d a ds l [q Hq] Hl]; subst.
  - split; [reflexivity | intros x v []].
  - destruct (IH l Hl) as [H1 H2]. split; [cbn [length]; lia |]. intros z v [<- | Hz] Hv; [apply (binarize_support x a q Hq); exact Hv | exact (H2 z v Hz Hv)].
Qed.

Lemma binarize_prob x : (forall v, In v x -> 0 <= v <= 1) -> is_prob (binarize x).
Proof. intros H. apply is_prob_indep. intros d Hd. apply in_map_iff in Hd. destruct Hd as (p & <- & Hp). apply is_prob_dmap, is_prob_bernoulli, H. exact Hp. Qed.
Lemma binarize_all_prob xs : unit_images xs -> is_prob (binarize_all xs).
Proof. intros H. apply is_prob_indep. intros d Hd. apply in_map_iff in Hd. destruct Hd as (x & <- & Hx). apply binarize_prob. intros v Hv. exact (H x v Hx Hv). Qed.

Lemma E_binarize_cons p x h : E (binarize (p :: x)) h = p * E (binarize x) (fun y => h (1 :: y)) + (1 - p) * E (binarize x) (fun y => h (0 :: y)).
Proof.
  unfold binarize. cbn [map indep]. rewrite E_bind, E_dmap, E_bernoulli. rewrite !E_dmap. reflexivity.
Qed.

Theorem binarize_affine f : pixel_affine f -> forall x, (forall v, In v x -> 0 <= v <= 1) -> E (binarize x) f = f x.
Proof.
  intros Hf x Hx. enough (H : forall pre, E (binarize x) (fun y => f (pre ++ y)) = f (pre ++ x)) by exact (H []).
  induction x as [| p x IH]; intros pre.
  - unfold binarize. cbn [map indep]. rewrite E_ret. reflexivity.
  - assert (IH' := IH (fun v Hv => Hx v (or_intror Hv))). rewrite E_binarize_cons.
    rewrite (E_ext _ (fun y => f (pre ++ 1 :: y)) (fun y => f ((pre ++ [1]) ++ y))) by (intros y; rewrite <- app_assoc; reflexivity).
    rewrite (E_ext _ (fun y => f (pre ++ 0 :: y)) (fun y => f ((pre ++ [0]) ++ y))) by (intros y; rewrite <- app_assoc; reflexivity).
    rewrite !IH', <- !app_assoc. cbn [app]. rewrite (Hf pre p x (Hx p (or_introl eq_refl))). ring.
Qed.

Theorem binarize_convex f : pixel_convex f -> forall x, (forall v, In v x -> 0 <= v <= 1) -> f x <= E (binarize x) f.
Proof.
  intros Hf x Hx. enough (H : forall pre, f (pre ++ x) <= E (binarize x) (fun y => f (pre ++ y))) by exact (H []).
  induction x as [| p x IH]; intros pre.
  - unfold binarize. cbn [map indep]. rewrite E_ret. right; reflexivity.
  - assert (IH' := IH (fun v Hv => Hx v (or_intror Hv))). rewrite E_binarize_cons.
    rewrite (E_ext _ (fun y => f (pre ++ 1 :: y)) (fun y => f ((pre ++ [1]) ++ y))) by (intros y; rewrite <- app_assoc; reflexivity).
    rewrite (E_ext _ (fun y => f (pre ++ 0 :: y)) (fun y => f ((pre ++ [0]) ++ y))) by (intros y; rewrite <- app_assoc; reflexivity).
    pose proof (Hf pre p x (Hx p (or_introl eq_refl))) as Hc. pose proof (IH' (pre ++ [1])) as H1. pose proof (IH' (pre ++ [0])) as H0. rewrite <- !app_assoc in H1, H0. cbn [app] in H1, H0.
    destruct (Hx p (or_introl eq_refl)) as [Hp0 Hp1].
    eapply Rle_trans; [exact Hc |]. rewrite Rplus_comm. apply Rplus_le_compat; apply Rmult_le_compat_l; try lra;
      (eapply Rle_trans; [first [exact H1 | exact H0] |]; right; apply E_ext; intros y; rewrite <- app_assoc; reflexivity).
Qed.

Lemma binarize_pixel x i : (forall v, In v x -> 0 <= v <= 1) -> (i < length x)%nat -> E (binarize x) (fun y => nth i y 0) = nth i x 0.
Proof.
  intros Hx Hi. unfold binarize. set (g := fun p => dmap (fun b : bool => if b then 1 else 0) (bernoulli p)).
  assert (Hg : nth i (map g x) [] = g (nth i x 0)) by (rewrite (nth_indep (map g x) [] (g 0)) by (rewrite map_length; exact Hi); apply map_nth).
  etransitivity; [refine (E_indep_nth 0 (map g x) i (fun v => v) _ _) |].
  - intros d Hd. apply in_map_iff in Hd. destruct Hd as (p & <- & Hp). apply is_prob_dmap, is_prob_bernoulli, Hx. exact Hp.
  - rewrite map_length. exact Hi.
  - rewrite Hg. unfold g. rewrite E_dmap, E_bernoulli. ring.
Qed.

(** ** Loaders *)
Section Loaders.
Variables (shuf0 shuf1 shuf2 : list image -> list image) (F : files).
Hypothesis (P0 : forall l, Permutation (shuf0 l) l) (P1 : forall l, Permutation (shuf1 l) l) (P2 : forall l, Permutation (shuf2 l) l).

Definition scaled (c : R) (xs : list image) : list image := map (map (fun b => b / c)) xs.

Lemma mnist_splits : length (mnist_train F) = Z.to_nat 60000 -> exists D tr val, load_raw_dataset shuf0 shuf1 shuf2 F "dynamic_mnist" = Some D /\
  partition_of (scaled 255 (mnist_train F)) [tr; val] /\ length tr = Z.to_nat 50000 /\ length val = Z.to_nat 10000 /\
  forall h, E D h = E (binarize_all val) (fun v => E (binarize_all (scaled 255 (mnist_test F))) (fun t => h (tr, v, t))).
Proof.
  intros Hl. set (src := scaled 255 (mnist_train F)). assert (Hls : length src = Z.to_nat 60000) by (unfold src, scaled; rewrite map_length; exact Hl).
  assert (Hs1 : @py_slice (list R) src 0 50000 = firstn (Z.to_nat 50000) src) by (apply slice_0; lia).
  assert (Hs2 : @py_slice (list R) src 50000 60000 = skipn (Z.to_nat 50000) src) by (apply slice_end; lia).
  exists (dmap (fun s : splits => (shuf0 (fst (fst s)), snd (fst s), snd s)) (load_dynamic_mnist F)), (shuf0 (firstn (Z.to_nat 50000) src)), (skipn (Z.to_nat 50000) src).
  split; [reflexivity | split; [| split; [| split]]].
  - unfold partition_of. cbn [concat]. rewrite app_nil_r. rewrite (P0 (firstn (Z.to_nat 50000) src)), split_at. reflexivity.
  - rewrite (Permutation_length (P0 _)), firstn_length. lia.
  - rewrite skipn_length. lia.
  - intros h. rewrite E_dmap. unfold load_dynamic_mnist. cbv zeta. rewrite E_bind. change (map (map (fun b => b / 255)) (mnist_train F)) with src.
    change (map (map (fun b => b / 255)) (mnist_test F)) with (scaled 255 (mnist_test F)). rewrite Hs2. apply E_ext. intros v. rewrite E_dmap. cbn [fst snd]. rewrite Hs1. reflexivity.
Qed.

Lemma omniglot_any n : (0 < n)%Z -> exists tr val,
  partition_of (reshape_data 28 (omni_data F)) [tr; val] /\ length val = Nat.min (Z.to_nat n) (length (omni_data F)) /\
  forall h, E (load_omniglot n shuf1 F) h = E (binarize_all val) (fun v => E (binarize_all (reshape_data 28 (omni_testdata F))) (fun t => h (tr, v, t))).
Proof.
  intros Hn. set (td := shuf1 (reshape_data 28 (omni_data F))).
  assert (Hl : length td = length (omni_data F)) by (unfold td; rewrite (Permutation_length (P1 _)); apply reshape_length).
  exists (py_upto td (- n)), (py_from td (- n)). split; [| split].
  - unfold partition_of. cbn [concat]. rewrite app_nil_r, upto_from. apply P1.
  - unfold py_from. rewrite skipn_length, py_bound_neg, Hl by exact Hn. lia.
  - intros h. unfold load_omniglot. fold td. rewrite E_bind. apply E_ext. intros v. rewrite E_dmap. reflexivity.
Qed.

Lemma omniglot_empty n : (n = 0 \/ Z.of_nat (length (omni_data F)) <= n)%Z -> forall s w, In (s, w) (load_omniglot n shuf1 F) -> fst (fst s) = [].
Proof.
  intros Hn s w Hs. unfold load_omniglot, bind in Hs. apply in_flat_map in Hs. destruct Hs as ([v u] & _ & Hs). apply in_map_iff in Hs. destruct Hs as ([z q] & Heq & Hz). cbn [fst snd] in *.
  injection Heq as -> _. unfold dmap in Hz. apply in_map_iff in Hz. destruct Hz as ([t q'] & Heq & _). cbn [fst snd] in Heq. injection Heq as <- _. cbn [fst].
  unfold py_upto. assert (Hl : length (shuf1 (reshape_data 28 (omni_data F))) = length (omni_data F)) by (rewrite (Permutation_length (P1 _)); apply reshape_length).
  rewrite Hl. replace (py_bound (length (omni_data F)) (- n)) with 0%nat; [reflexivity |]. unfold py_bound. destruct (Z.ltb_spec (- n) 0); lia.
Qed.

Lemma frey_splits : length (frey F) = Z.to_nat 1965 -> exists tr val te, load_raw_dataset shuf0 shuf1 shuf2 F "freyfaces" = Some (ret (tr, val, te)) /\
  partition_of (scaled 256 (frey F)) [tr; val; te] /\ length tr = Z.to_nat 1565 /\ length val = Z.to_nat 200 /\ length te = Z.to_nat 200.
Proof.
  intros Hl. set (data := shuf1 (scaled 256 (frey F))). assert (Hld : length data = Z.to_nat 1965) by (unfold data; rewrite (Permutation_length (P1 _)); unfold scaled; rewrite map_length; exact Hl).
  exists (shuf0 (firstn (Z.to_nat 1565) data)), (firstn (Z.to_nat 200) (skipn (Z.to_nat 1565) data)), (skipn (Z.to_nat 1765) data).
  split; [| split; [| split; [| split]]].
  - unfold load_raw_dataset. cbn [String.eqb Ascii.eqb Bool.eqb]. unfold load_freyfaces. fold (scaled 256 (frey F)). fold data.
    rewrite (slice_0 data 1565) by lia. rewrite (slice_mid data 1565 (1565 + 200)) by lia. rewrite (slice_end data (1565 + 200) (1565 + 200 + 200)) by lia. reflexivity.
  - unfold partition_of. cbn [concat]. rewrite app_nil_r. rewrite (P0 (firstn (Z.to_nat 1565) data)).
    assert (H : firstn (Z.to_nat 200) (skipn (Z.to_nat 1565) data) ++ skipn (Z.to_nat 1765) data = skipn (Z.to_nat 1565) data).
    { replace (Z.to_nat 1765) with (Z.to_nat 200 + Z.to_nat 1565)%nat by lia. rewrite <- skipn_add. apply split_at. }
    rewrite H, split_at. apply P1.
  - rewrite (Permutation_length (P0 _)), firstn_length. lia.
  - rewrite firstn_length, skipn_length. lia.
  - rewrite skipn_length. lia.
Qed.

Definition inverted (xs : list image) : list image := map (map (fun v => 1 - v)) (reshape_data 28 xs).

Lemma caltech_splits : exists tr val te, load_raw_dataset shuf0 shuf1 shuf2 F "caltech" = Some (ret (tr, val, te)) /\
  Permutation tr (inverted (cal_train F)) /\ Permutation val (inverted (cal_val F)) /\ te = inverted (cal_test F).
Proof.
  exists (shuf0 (shuf1 (inverted (cal_train F)))), (shuf2 (inverted (cal_val F))), (inverted (cal_test F)). split; [reflexivity | split; [| split; [apply P2 | reflexivity]]].
  transitivity (shuf1 (inverted (cal_train F))); [apply P0 | apply P1].
Qed.

Lemma inverted_binary xs : (forall x, In x xs -> length x = 784%nat) -> binary_images xs -> binary_images (inverted xs).
Proof.
  intros Hl Hb x v Hx Hv. unfold inverted in Hx. apply in_map_iff in Hx. destruct Hx as (z & <- & Hz). apply in_map_iff in Hv. destruct Hv as (u & <- & Hu).
  destruct (reshape_all (fun v => v = 0 \/ v = 1) 28 xs ltac:(lia) Hl Hb z u Hz Hu) as [-> | ->]; [right | left]; lra.
Qed.

Lemma train_binary name D : (name = "static_mnist" \/ name = "caltech")%string -> binary_images (static_train F) -> binary_images (cal_train F) -> (forall x, In x (cal_train F) -> length x = 784%nat) ->
  load_numpyds shuf0 shuf1 shuf2 F name = Some D -> forall xs w, In (xs, w) D -> binary_images xs.
Proof.
  intros Hn Hs Hc Hl HD xs w Hxs. destruct Hn as [-> | ->]; cbv beta delta [load_numpyds load_raw_dataset] in HD; cbn [String.eqb Ascii.eqb Bool.eqb option_map] in HD.
  - injection HD as <-. destruct Hxs as [Hxs | []]. cbn [fst snd] in Hxs. apply (f_equal fst) in Hxs. cbn [fst] in Hxs. subst xs.
    intros x v Hx Hv. apply (Hs x v); [| exact Hv]. apply (Permutation_in _ (P0 _)). exact Hx.
  - injection HD as <-. destruct Hxs as [Hxs | []]. cbn [fst snd] in Hxs. apply (f_equal fst) in Hxs. cbn [fst] in Hxs. subst xs.
    intros x v Hx Hv. apply (inverted_binary (cal_train F) Hl Hc x v); [| exact Hv]. apply (Permutation_in _ (P1 _)). apply (Permutation_in _ (P0 _)). exact Hx.
Qed.

(** The training images of the two gray-level sets are the gray levels. *)
Lemma train_gray name D : (name = "dynamic_mnist" \/ name = "omniglot")%string -> load_numpyds shuf0 shuf1 shuf2 F name = Some D ->
  forall xs w x, In (xs, w) D -> In x xs -> In x (if String.eqb name "omniglot" then reshape_data 28 (omni_data F) else scaled 255 (mnist_train F)).
Proof.
  intros Hn HD xs w x Hxs Hx. destruct Hn as [-> | ->]; cbv beta delta [load_numpyds load_raw_dataset] in HD; cbn [String.eqb Ascii.eqb Bool.eqb option_map] in *; injection HD as <-.
  - unfold dmap at 1 in Hxs. apply in_map_iff in Hxs. destruct Hxs as ([s q] & Heq & Hs). cbn [fst snd] in Heq. injection Heq as <- _.
    unfold dmap at 1 in Hs. apply in_map_iff in Hs. destruct Hs as ([s' q'] & Heq & Hs). cbn [fst snd] in Heq. injection Heq as <- _. cbn [fst snd] in Hx.
    unfold load_dynamic_mnist, bind in Hs. apply in_flat_map in Hs. destruct Hs as ([v u] & _ & Hs). apply in_map_iff in Hs. destruct Hs as ([z r] & Heq & Hz). cbn [fst snd] in *. injection Heq as -> _.
    unfold dmap in Hz. apply in_map_iff in Hz. destruct Hz as ([t r'] & Heq & _). cbn [fst snd] in Heq. injection Heq as <- _. cbn [fst] in Hx.
    apply (Permutation_in _ (P0 _)) in Hx. unfold py_slice in Hx. unfold scaled. eapply in_skipn_firstn; exact Hx.
  - unfold dmap at 1 in Hxs. apply in_map_iff in Hxs. destruct Hxs as ([s q] & Heq & Hs). cbn [fst snd] in Heq. injection Heq as <- _.
    unfold dmap at 1 in Hs. apply in_map_iff in Hs. destruct Hs as ([s' q'] & Heq & Hs). cbn [fst snd] in Heq. injection Heq as <- _. cbn [fst snd] in Hx.
    unfold load_omniglot, bind in Hs. apply in_flat_map in Hs. destruct Hs as ([v u] & _ & Hs). apply in_map_iff in Hs. destruct Hs as ([z r] & Heq & Hz). cbn [fst snd] in *. injection Heq as -> _.
    unfold dmap in Hz. apply in_map_iff in Hz. destruct Hz as ([t r'] & Heq & _). cbn [fst snd] in Heq. injection Heq as <- _. cbn [fst] in Hx.
    apply (Permutation_in _ (P0 _)) in Hx. unfold py_upto in Hx. apply (Permutation_in _ (P1 _)). eapply in_firstn_in; exact Hx.
Qed.

Lemma mnist_train_support D xs w : load_numpyds shuf0 shuf1 shuf2 F "dynamic_mnist" = Some D -> In (xs, w) D -> xs = shuf0 (py_slice (scaled 255 (mnist_train F)) 0 50000).
Proof.
  intros HD Hxs. cbv beta delta [load_numpyds load_raw_dataset] in HD; cbn [String.eqb Ascii.eqb Bool.eqb option_map] in *; injection HD as <-.
  unfold dmap at 1 in Hxs. apply in_map_iff in Hxs. destruct Hxs as ([s q] & Heq & Hs). cbn [fst snd] in Heq. injection Heq as <- _.
  unfold dmap at 1 in Hs. apply in_map_iff in Hs. destruct Hs as ([s' q'] & Heq & Hs). cbn [fst snd] in Heq. injection Heq as <- _. cbn [fst snd].
  unfold load_dynamic_mnist, bind in Hs. apply in_flat_map in Hs. destruct Hs as ([v u] & _ & Hs). apply in_map_iff in Hs. destruct Hs as ([z r] & Heq & Hz). cbn [fst snd] in *. injection Heq as -> _.
  unfold dmap in Hz. apply in_map_iff in Hz. destruct Hz as ([t r'] & Heq & _). cbn [fst snd] in Heq. injection Heq as <- _. reflexivity.
Qed.
End Loaders.

(** ** Gray levels and the restricted Boltzmann machine *)
Lemma exp_tangent m y : exp m * (1 + (y - m)) <= exp y.
Proof.
  replace (exp y) with (exp m * exp (y - m)) by (rewrite <- exp_plus; f_equal; ring). apply Rmult_le_compat_l; [left; apply exp_pos | apply exp_ineq1_le].
Qed.
Lemma exp_convex p u : 0 <= p <= 1 -> exp (p * u) <= (1 - p) + p * exp u.
Proof.
  intros Hp. pose proof (exp_tangent (p * u) u) as H1. pose proof (exp_tangent (p * u) 0) as H2. rewrite exp_0 in H2.
  apply Rle_trans with ((1 - p) * (exp (p * u) * (1 + (0 - p * u))) + p * (exp (p * u) * (1 + (u - p * u)))); [right; ring |].
  apply Rplus_le_compat; [| apply Rmult_le_compat_l; lra]. rewrite <- (Rmult_1_r (1 - p)) at 2. apply Rmult_le_compat_l; lra.
Qed.
Lemma softplus_tangent m y : softplus m + sigmoid m * (y - m) <= softplus y.
Proof.
  assert (Hm : 0 < 1 + exp m) by (pose proof (exp_pos m); lra). assert (Hy : 0 < 1 + exp y) by (pose proof (exp_pos y); lra).
  assert (Hs : 0 <= sigmoid m <= 1).
  { unfold sigmoid. pose proof (exp_pos m). split; [left; apply Rdiv_lt_0_compat; lra |]. apply (Rmult_le_reg_r (1 + exp m)); [exact Hm |]. unfold Rdiv. rewrite Rmult_assoc, Rinv_l by lra. lra. }
  pose proof (exp_convex (sigmoid m) (y - m) Hs) as H.
  assert (H2 : (1 - sigmoid m) + sigmoid m * exp (y - m) = (1 + exp y) / (1 + exp m)).
  { replace (exp y) with (exp m * exp (y - m)) by (rewrite <- exp_plus; f_equal; ring). unfold sigmoid. field. lra. }
  rewrite H2 in H. apply Rle_trans with (softplus m + (softplus y - softplus m)); [| right; ring]. apply Rplus_le_compat_l.
  unfold softplus. unfold Rminus at 2. rewrite <- ln_Rinv by exact Hm. rewrite <- ln_mult by (try assumption; apply Rinv_0_lt_compat; exact Hm).
  rewrite <- (ln_exp (sigmoid m * (y - m))). destruct H as [H | H]; [left; apply ln_increasing; [apply exp_pos | exact H] | right; f_equal; exact H].
Qed.
Lemma softplus_convex p a b : 0 <= p <= 1 -> softplus ((1 - p) * a + p * b) <= (1 - p) * softplus a + p * softplus b.
Proof.
  intros Hp. set (m := (1 - p) * a + p * b). pose proof (softplus_tangent m a) as H1. pose proof (softplus_tangent m b) as H2.
  apply Rle_trans with ((1 - p) * (softplus m + sigmoid m * (a - m)) + p * (softplus m + sigmoid m * (b - m))); [right; unfold m; ring |].
  apply Rplus_le_compat; apply Rmult_le_compat_l; lra.
Qed.

Lemma nth_pixel pre v post i : nth i (pre ++ v :: post) 0 = (1 - v) * nth i (pre ++ 0 :: post) 0 + v * nth i (pre ++ 1 :: post) 0.
Proof.
  destruct (Nat.lt_ge_cases i (length pre)) as [H | H]; [rewrite !app_nth1 by exact H; ring |]. rewrite !app_nth2 by exact H.
  destruct (i - length pre)%nat as [| n]; cbn [nth]; ring.
Qed.

Lemma rsum_pixel {A} (l : list A) (c : A -> R) (g g0 g1 : A -> R) v : (forall a, g a = (1 - v) * g0 a + v * g1 a) ->
  rsum l (fun a => g a * c a) = (1 - v) * rsum l (fun a => g0 a * c a) + v * rsum l (fun a => g1 a * c a).
Proof. intros H. rewrite <- !rsum_scal, <- rsum_plus. apply rsum_ext. intros a _. rewrite H. ring. Qed.

Theorem rbm_float_convex nv nh w bv bh : pixel_convex (rbm_float nv nh w bv bh).
Proof.
  intros pre v post Hv. unfold rbm_float.
  rewrite (rsum_pixel (seq 0 nv) bv (fun i => nth i (pre ++ v :: post) 0) (fun i => nth i (pre ++ 0 :: post) 0) (fun i => nth i (pre ++ 1 :: post) 0) v (nth_pixel pre v post)).
  match goal with |- ?a + (?p * ?x + ?q * ?y) <= ?p * (?b + ?x) + ?q * (?c + ?y) => enough (a <= p * b + q * c) by lra end.
  rewrite <- !rsum_scal, <- rsum_plus. apply rsum_le. intros j _.
  rewrite (rsum_pixel (seq 0 nv) (fun i => w i j) (fun i => nth i (pre ++ v :: post) 0) (fun i => nth i (pre ++ 0 :: post) 0) (fun i => nth i (pre ++ 1 :: post) 0) v (nth_pixel pre v post)).
  set (a := rsum (seq 0 nv) (fun i => nth i (pre ++ 0 :: post) 0 * w i j)). set (b := rsum (seq 0 nv) (fun i => nth i (pre ++ 1 :: post) 0 * w i j)).
  pose proof (softplus_convex v (a + bh j) (b + bh j) Hv) as H. unfold softplus in H.
  replace ((1 - v) * a + v * b + bh j) with ((1 - v) * (a + bh j) + v * (b + bh j)) by ring. exact H.
Qed.

Lemma rbm_float_binary nv nh w bv bh v : rbm_float nv nh w bv bh (map INR v) = rbm_call nv nh w bv bh v.
Proof.
  assert (H : forall i, nth i (map INR v) 0 = at_ v i) by (intros i; unfold at_; change 0 with (INR 0); apply map_nth).
  unfold rbm_float, rbm_call, softplus, pre_h. f_equal.
  - apply rsum_ext. intros j _. f_equal. f_equal. f_equal. f_equal. apply rsum_ext. intros i _. rewrite H. reflexivity.
  - apply rsum_ext. intros i _. rewrite H. reflexivity.
Qed.

Lemma gray_strict : rbm_float 1 1 (fun _ _ => 2 * ln 2) (fun _ => 0) (fun _ => 0) [1 / 2] < E (binarize [1 / 2]) (rbm_float 1 1 (fun _ _ => 2 * ln 2) (fun _ => 0) (fun _ => 0)).
Proof.
  rewrite E_binarize_cons. unfold binarize. cbn [map indep]. rewrite !E_ret. unfold rbm_float. cbn [seq rsum nth].
  replace (1 / 2 * (2 * ln 2) + 0 + 0) with (ln 2) by lra. replace (1 * (2 * ln 2) + 0 + 0) with (ln 2 + ln 2) by lra. replace (0 * (2 * ln 2) + 0 + 0) with 0 by lra.
  rewrite exp_plus, exp_ln, exp_0 by lra.
  assert (H : ln (1 + 2) + ln (1 + 2) < ln (1 + 2 * 2) + ln (1 + 1)) by (rewrite <- !ln_mult by lra; apply ln_increasing; lra). lra.
Qed.

Lemma clip_nearest lo hi v : lo <= hi -> nearest_level lo hi v (Rmin hi (Rmax lo v)).
Proof.
  intros H. unfold nearest_level, Rmin, Rmax. destruct (Rle_dec lo v), (Rle_dec hi _); split; try lra; intros u Hu; unfold Rabs; repeat destruct Rcase_abs; lra.
Qed.
Lemma clip_images xs : Forall2 (Forall2 (nearest_level (1 / 512) (511 / 512))) xs (map (map (fun v => Rmin (1 - 1 / 512) (Rmax (1 / 512) v))) xs).
Proof.
  induction xs as [|x xs IH]; cbn; constructor; [|exact IH]. clear IH. induction x as [|v x IH]; cbn; constructor; [|exact IH].
  replace (511 / 512) with (1 - 1 / 512) by lra. apply clip_nearest. lra.
Qed.
