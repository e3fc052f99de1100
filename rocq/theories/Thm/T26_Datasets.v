(** C83: the image data sets. *)
From Coq Require Import String ZArith Reals List Lra Lia Arith Permutation.
From Verif.Base Require Import RSum Dist.
From Verif.Spec Require Import Datasets.
From Verif.Model Require Import Datasets RBM.
From Verif.Proof Require Import DatasetsProof.
Import ListNotations.
Local Open Scope R_scope.

(** ** C83 *)
(** MNIST: the first 50000 training images and the other 10000 are separated; validation and test are fresh binarisations. *)
Theorem C83_mnist_split : forall shuf0 shuf1 shuf2 F, (forall l, Permutation (shuf0 l) l) -> length (mnist_train F) = Z.to_nat 60000 ->
  exists D tr val, load_raw_dataset shuf0 shuf1 shuf2 F "dynamic_mnist" = Some D /\
  partition_of (map (map (fun b => b / 255)) (mnist_train F)) [tr; val] /\ length tr = Z.to_nat 50000 /\ length val = Z.to_nat 10000 /\
  forall h, E D h = E (binarize_all val) (fun v => E (binarize_all (map (map (fun b => b / 255)) (mnist_test F))) (fun t => h (tr, v, t))).
Proof. intros. apply mnist_splits; assumption. Qed.
Print Assumptions C83_mnist_split.

(** Omniglot, any positive number of validation images. *)
Theorem C83_omniglot_split : forall shuf F n, (forall l, Permutation (shuf l) l) -> (0 < n)%Z ->
  exists tr val, partition_of (reshape_data 28 (omni_data F)) [tr; val] /\ length val = Nat.min (Z.to_nat n) (length (omni_data F)) /\
  forall h, E (load_omniglot n shuf F) h = E (binarize_all val) (fun v => E (binarize_all (reshape_data 28 (omni_testdata F))) (fun t => h (tr, v, t))).
Proof. intros. apply omniglot_any; assumption. Qed.
Print Assumptions C83_omniglot_split.

(** Asking for no validation images leaves no training images instead. *)
Theorem C83_omniglot_no_validation_refuted : exists F, omni_data F <> [] /\ forall shuf, (forall l, Permutation (shuf l) l) ->
  forall s w, In (s, w) (load_omniglot 0 shuf F) -> fst (fst s) = [].
Proof.
  exists (Build_files [] [] [] [] [] [repeat 1 784] [] [] [] [] [] [] [] []). split; [discriminate |]. intros shuf P s w Hs. apply (omniglot_empty shuf _ P 0 (or_introl eq_refl) s w Hs).
Qed.
Print Assumptions C83_omniglot_no_validation_refuted.

Theorem C83_frey_split : forall shuf0 shuf1 shuf2 F, (forall l, Permutation (shuf0 l) l) -> (forall l, Permutation (shuf1 l) l) -> length (frey F) = Z.to_nat 1965 ->
  exists tr val te, load_raw_dataset shuf0 shuf1 shuf2 F "freyfaces" = Some (ret (tr, val, te)) /\
  partition_of (map (map (fun b => b / 256)) (frey F)) [tr; val; te] /\ length tr = Z.to_nat 1565 /\ length val = Z.to_nat 200 /\ length te = Z.to_nat 200.
Proof. intros. apply frey_splits; assumption. Qed.
Print Assumptions C83_frey_split.

Theorem C83_caltech_split : forall shuf0 shuf1 shuf2 F, (forall l, Permutation (shuf0 l) l) -> (forall l, Permutation (shuf1 l) l) -> (forall l, Permutation (shuf2 l) l) ->
  exists tr val te, load_raw_dataset shuf0 shuf1 shuf2 F "caltech" = Some (ret (tr, val, te)) /\
  Permutation tr (map (map (fun v => 1 - v)) (reshape_data 28 (cal_train F))) /\ Permutation val (map (map (fun v => 1 - v)) (reshape_data 28 (cal_val F))) /\
  te = map (map (fun v => 1 - v)) (reshape_data 28 (cal_test F)).
Proof. intros. apply caltech_splits; assumption. Qed.
Print Assumptions C83_caltech_split.

(** The two reshapes transpose every image and mix no two images. *)
Theorem C83_transpose : forall s xs n i j, (n < length xs)%nat -> (i < s)%nat -> (j < s)%nat ->
  length (reshape_data s xs) = length xs /\ length (nth n (reshape_data s xs) []) = (s * s)%nat /\
  nth (i + s * j) (nth n (reshape_data s xs) []) 0 = nth (s * i + j) (nth n xs []) 0.
Proof. intros s xs n i j Hn Hi Hj. split; [apply reshape_length | split; [apply reshape_shape; exact Hn | apply reshape_transposes; assumption]]. Qed.
Print Assumptions C83_transpose.

(** Training images of the two data sets stored as bits are binary. *)
Theorem C83_train_binary : forall shuf0 shuf1 shuf2 F name D, (forall l, Permutation (shuf0 l) l) -> (forall l, Permutation (shuf1 l) l) ->
  (name = "static_mnist" \/ name = "caltech")%string -> binary_images (static_train F) -> binary_images (cal_train F) -> (forall x, In x (cal_train F) -> length x = 784%nat) ->
  load_numpyds shuf0 shuf1 shuf2 F name = Some D -> forall xs w, In (xs, w) D -> binary_images xs.
Proof. intros shuf0 shuf1 shuf2 F name D P0 P1. exact (train_binary shuf0 shuf1 shuf2 F P0 P1 name D). Qed.
Print Assumptions C83_train_binary.

(** The training images of the other two are the gray levels of the source. *)
Theorem C83_train_gray : forall shuf0 shuf1 shuf2 F name D, (forall l, Permutation (shuf0 l) l) -> (forall l, Permutation (shuf1 l) l) ->
  (name = "dynamic_mnist" \/ name = "omniglot")%string -> load_numpyds shuf0 shuf1 shuf2 F name = Some D ->
  forall xs w x, In (xs, w) D -> In x xs -> In x (if String.eqb name "omniglot" then reshape_data 28 (omni_data F) else map (map (fun b => b / 255)) (mnist_train F)).
Proof. intros shuf0 shuf1 shuf2 F name D P0 P1. exact (train_gray shuf0 shuf1 shuf2 F P0 P1 name D). Qed.
Print Assumptions C83_train_gray.

(** So the model with two categories is trained on values that are no categories. *)
Theorem C83_train_binary_refuted : exists F, forall shuf0 shuf1 shuf2, (forall l, Permutation (shuf0 l) l) ->
  exists D, load_numpyds shuf0 shuf1 shuf2 F "dynamic_mnist" = Some D /\ mass D = 1 /\ forall xs w, In (xs, w) D -> ~ binary_images xs.
Proof.
  exists (Build_files [] [] [] (repeat [128] (Z.to_nat 60000)) [] [] [] [] [] [] [] [] [] []). intros shuf0 shuf1 shuf2 P0. set (F := Build_files _ _ _ _ _ _ _ _ _ _ _ _ _ _).
  destruct (mnist_splits shuf0 shuf1 shuf2 F P0 (repeat_length _ _)) as (D & tr & val & HD & Hp & Hl1 & Hl2 & HE).
  exists (dmap (fun s : splits => fst (fst s)) D). split; [unfold load_numpyds; rewrite HD; reflexivity | split].
  - unfold mass. rewrite E_dmap, HE. rewrite (E_ext _ _ (fun _ => 1)).
    + apply binarize_all_prob. intros x v Hx Hv. assert (Hx' : In x (concat [tr; val])) by (cbn [concat]; rewrite app_nil_r; apply in_or_app; right; exact Hx).
      apply (Permutation_in _ Hp) in Hx'. unfold scaled in Hx'. apply in_map_iff in Hx'. destruct Hx' as (z & <- & Hz). apply repeat_spec in Hz. subst z. destruct Hv as [<- | []]. lra.
    + intros v. unfold binarize_all. cbn [F mnist_test scaled map indep]. rewrite E_ret. reflexivity.
  - intros xs w Hxs Hb. assert (HD' : load_numpyds shuf0 shuf1 shuf2 F "dynamic_mnist" = Some (dmap (fun s : splits => fst (fst s)) D)) by (unfold load_numpyds; rewrite HD; reflexivity).
    rewrite (mnist_train_support shuf0 shuf1 shuf2 F _ xs w HD' Hxs) in Hb. clear HD HD' Hxs HE Hp.
    assert (Hsl : py_slice (scaled 255 (mnist_train F)) 0 50000 = repeat [128 / 255] (Z.to_nat 50000)).
    { rewrite slice_0 by lia. unfold scaled, F. cbn [mnist_train]. assert (H : forall m k, (k <= m)%nat -> firstn k (map (map (fun b => b / 255)) (repeat [128] m)) = repeat [128 / 255] k).
      { induction m as [| m IH]; intros k Hk; [replace k with 0%nat by lia; reflexivity |]. destruct k as [| k]; [reflexivity |]. cbn [repeat map firstn]. f_equal. apply IH. lia. }
      apply H. lia. }
    rewrite Hsl in Hb. assert (Hin : In [128 / 255] (shuf0 (repeat [128 / 255] (Z.to_nat 50000)))).
    { apply (Permutation_in _ (Permutation_sym (P0 _))). replace (Z.to_nat 50000) with (S (Z.to_nat 49999)) by lia. left. reflexivity. }
    destruct (Hb _ _ Hin (or_introl eq_refl)) as [H | H]; lra.
Qed.
Print Assumptions C83_train_binary_refuted.

(** Validation and test images are binary, keep their shape and have the gray level as mean of each pixel; so do the images on
    which the restricted Boltzmann machine is trained. *)
Theorem C83_binarisation : forall xs ys w, In (ys, w) (binarize_all xs) -> length ys = length xs /\ binary_images ys.
Proof. exact binarize_all_support. Qed.
Print Assumptions C83_binarisation.
Theorem C83_rbm_preprocess : forall x, (forall v, In v x -> 0 <= v <= 255) -> is_prob (rbm_preprocess x) /\
  (forall y w, In (y, w) (rbm_preprocess x) -> length y = length x /\ forall v, In v y -> v = 0 \/ v = 1) /\
  (forall i, (i < length x)%nat -> E (rbm_preprocess x) (fun y => nth i y 0) = nth i x 0 / 255).
Proof.
  intros x Hx. assert (Hu : forall v, In v (map (fun b => b / 255) x) -> 0 <= v <= 1) by (intros v Hv; apply in_map_iff in Hv; destruct Hv as (b & <- & Hb); specialize (Hx b Hb); lra).
  unfold rbm_preprocess. split; [apply binarize_prob; exact Hu | split].
  - intros y w Hy. apply binarize_support in Hy. rewrite map_length in Hy. exact Hy.
  - intros i Hi. rewrite binarize_pixel by (rewrite ?map_length; assumption). rewrite (nth_indep _ 0 (0 / 255)) by (rewrite map_length; exact Hi). apply (map_nth (fun b => b / 255)).
Qed.
Print Assumptions C83_rbm_preprocess.

(** Training on gray levels gives the expected log-likelihood of binarised images when the energy is affine in each pixel, a
    lower value when it is convex in each pixel (the restricted Boltzmann machine), and strictly lower in general. *)
Theorem C83_gray_affine : forall f, pixel_affine f -> forall x, (forall v, In v x -> 0 <= v <= 1) -> E (binarize x) f = f x.
Proof. exact binarize_affine. Qed.
Print Assumptions C83_gray_affine.
Theorem C83_gray_rbm : forall nv nh w bv bh x, (forall v, In v x -> 0 <= v <= 1) -> rbm_float nv nh w bv bh x <= E (binarize x) (rbm_float nv nh w bv bh).
Proof. intros nv nh w bv bh. apply binarize_convex, rbm_float_convex. Qed.
Print Assumptions C83_gray_rbm.
Theorem C83_gray_refuted : exists nv nh w bv bh x, (forall v, In v x -> 0 <= v <= 1) /\ rbm_float nv nh w bv bh x < E (binarize x) (rbm_float nv nh w bv bh).
Proof. exists 1%nat, 1%nat, (fun _ _ => 2 * ln 2), (fun _ => 0), (fun _ => 0), [1 / 2]. split; [intros v [<- | []]; lra | exact gray_strict]. Qed.
Print Assumptions C83_gray_refuted.
(** On binary images the float version is the network of the other theorems. *)
Theorem C83_float_binary : forall nv nh w bv bh v, rbm_float nv nh w bv bh (map INR v) = rbm_call nv nh w bv bh v.
Proof. exact rbm_float_binary. Qed.
Print Assumptions C83_float_binary.

(** Histopathology: every image of every part in its place, each pixel moved to the nearest level that is neither black nor white. *)
Theorem C83_histopathology : forall shuf0 shuf1 shuf2 F, (forall l, Permutation (shuf0 l) l) ->
  exists tr val te tr', load_raw_dataset shuf0 shuf1 shuf2 F "histopathology" = Some (ret (tr', val, te)) /\ Permutation tr' tr /\
  Forall2 (Forall2 (nearest_level (1 / 512) (511 / 512))) (hist_train F) tr /\
  Forall2 (Forall2 (nearest_level (1 / 512) (511 / 512))) (hist_val F) val /\ Forall2 (Forall2 (nearest_level (1 / 512) (511 / 512))) (hist_test F) te.
Proof.
  intros shuf0 shuf1 shuf2 F H. do 4 eexists. split; [reflexivity|]. split; [apply H|]. repeat split; apply clip_images.
Qed.
Print Assumptions C83_histopathology.

(** *** Examples *)
Example C83_histopathology_case : nearest_level (1 / 512) (511 / 512) 0 (1 / 512) /\ ~ nearest_level (1 / 512) (511 / 512) 0 0 /\ nearest_level (1 / 512) (511 / 512) (1 / 2) (1 / 2).
Proof.
  unfold nearest_level. split; [|split].
  - split; [lra|]. intros u Hu. unfold Rabs. repeat destruct Rcase_abs; lra.
  - intros [H _]. lra.
  - split; [lra|]. intros u Hu. unfold Rabs. repeat destruct Rcase_abs; lra.
Qed.
Definition idl (l : list (list R)) := l.
Definition ex_files : files := Build_files [[0; 1]; [1; 1]] [] [] (repeat [0; 255; 51] (Z.to_nat 60000)) [[51]] [repeat 0 784; repeat 1 784] [] [repeat 1 784] [] [] [] [] [] (repeat [64; 128] (Z.to_nat 1965)).
Example C83_mnist_case : exists D tr val, load_raw_dataset idl idl idl ex_files "dynamic_mnist" = Some D /\
  partition_of (map (map (fun b => b / 255)) (mnist_train ex_files)) [tr; val] /\ length tr = Z.to_nat 50000 /\ length val = Z.to_nat 10000 /\
  forall h, E D h = E (binarize_all val) (fun v => E (binarize_all (map (map (fun b => b / 255)) (mnist_test ex_files))) (fun t => h (tr, v, t))).
Proof. apply C83_mnist_split; [intros; reflexivity | apply repeat_length]. Qed.
Example C83_omniglot_case : exists tr val, partition_of (reshape_data 28 (omni_data ex_files)) [tr; val] /\ length val = 1%nat.
Proof. destruct (C83_omniglot_split idl ex_files 1 ltac:(intros; reflexivity) ltac:(lia)) as (tr & val & H1 & H2 & _). exists tr, val. split; [exact H1 | exact H2]. Qed.
Example C83_frey_case : exists tr val te, load_raw_dataset idl idl idl ex_files "freyfaces" = Some (ret (tr, val, te)) /\
  partition_of (map (map (fun b => b / 256)) (frey ex_files)) [tr; val; te] /\ length tr = Z.to_nat 1565 /\ length val = Z.to_nat 200 /\ length te = Z.to_nat 200.
Proof. apply C83_frey_split; [intros; reflexivity | intros; reflexivity | apply repeat_length]. Qed.
Example C83_transpose_case : reshape_data 2 [[1; 2; 3; 4]; [5; 6; 7; 8]] = [[1; 3; 2; 4]; [5; 7; 6; 8]].
Proof. reflexivity. Qed.
Example C83_train_binary_case : forall D, load_numpyds idl idl idl ex_files "caltech" = Some D -> forall xs w, In (xs, w) D -> binary_images xs.
Proof.
  intros D HD. apply (C83_train_binary idl idl idl ex_files "caltech" D); try (intros; reflexivity); [right; reflexivity | | | | exact HD].
  - intros x v [<- | [<- | []]] [<- | [<- | []]]; auto.
  - intros x v [<- | []] Hv. right. exact (repeat_spec _ _ _ Hv).
  - intros x [<- | []]. apply repeat_length.
Qed.
Example C83_train_gray_case : forall D, load_numpyds idl idl idl ex_files "dynamic_mnist" = Some D -> forall xs w x, In (xs, w) D -> In x xs -> x = [0 / 255; 255 / 255; 51 / 255].
Proof.
  intros D HD xs w x Hxs Hx. pose proof (C83_train_gray idl idl idl ex_files "dynamic_mnist" D ltac:(intros; reflexivity) ltac:(intros; reflexivity) ltac:(left; reflexivity) HD xs w x Hxs Hx) as H.
  cbn [String.eqb Ascii.eqb Bool.eqb ex_files mnist_train] in H. apply in_map_iff in H. destruct H as (z & <- & Hz). apply repeat_spec in Hz. subst z. reflexivity.
Qed.
Example C83_binarisation_case : E (binarize_all [[1 / 2; 1]]) (fun ys => nth 0 (nth 0 ys []) 0 + nth 1 (nth 0 ys []) 0) = 3 / 2.
Proof. unfold binarize_all. cbn [map indep]. rewrite E_bind. rewrite E_binarize_cons, !E_binarize_cons. unfold binarize. cbn [map indep]. rewrite !E_ret, !E_dmap, !E_ret. cbn. lra. Qed.
Example C83_rbm_preprocess_case : E (rbm_preprocess [51; 255]) (fun y => nth 0 y 0) = 51 / 255.
Proof. apply (C83_rbm_preprocess [51; 255]); [intros v [<- | [<- | []]]; lra | cbn; lia]. Qed.
Example C83_gray_affine_case : E (binarize [1 / 2; 1 / 4]) (fun x => 3 * nth 0 x 0 - nth 0 x 0 * nth 1 x 0) = 11 / 8.
Proof.
  rewrite (C83_gray_affine (fun x => 3 * nth 0 x 0 - nth 0 x 0 * nth 1 x 0)); [cbn [nth]; lra | | intros v [<- | [<- | []]]; lra].
  intros pre v post _. destruct pre as [| a [| b pre]]; cbn [app nth]; try ring. 
Qed.
