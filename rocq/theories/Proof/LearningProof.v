(** Proofs about the training objective. *)
From Coq Require Import Reals List Lra Lia Arith.
From Verif.Base Require Import RSum Cube Dist MH.
From Verif.Spec Require Import Chain Ergodic Learning.
From Verif.Model Require Import RBM Gibbs Learning.
From Verif.Proof Require Import RBMProof BernEvalProof PathAuxCatProof GibbsProof ErgodicProof ErgodicSamplers.
Import ListNotations.
Local Open Scope R_scope.

(** ** Averages *)
Lemma rsum_pairs (a b : list R) : length a = length b -> rsum (map (fun p => fst p - snd p) (combine a b)) (fun v => v) = rsum a (fun v => v) - rsum b (fun v => v).
Proof. revert b. induction a as [| u a IH]; intros [| v b] H; try discriminate; [cbn; ring |]. cbn [combine map rsum fst snd]. rewrite IH by (injection H; auto). ring. Qed.

Lemma rsum_id_const (l : list R) u : rsum (map (fun v => u - v) l) (fun v => v) = INR (length l) * u - rsum l (fun v => v).
Proof. rewrite rsum_map. rewrite rsum_minus, rsum_const. ring. Qed.
Lemma rsum_id_const2 (l : list R) u : rsum (map (fun v => v - u) l) (fun v => v) = rsum l (fun v => v) - INR (length l) * u.
Proof. rewrite rsum_map. rewrite rsum_minus, rsum_const. ring. Qed.

Lemma avg_vsub a b c : vsub a b = Some c -> c <> [] -> avg c = avg a - avg b /\ a <> [] /\ b <> [].
Proof.
  unfold vsub. destruct (Nat.eqb_spec (length a) (length b)) as [He | Hn].
  - intros Hc Hne. injection Hc as <-.
    assert (Hl : length (combine a b) = length a) by (rewrite combine_length; lia).
    assert (Ha : a <> []) by (intros ->; apply Hne; reflexivity). assert (Hb : b <> []) by (intros ->; destruct a; [congruence | discriminate]).
    split; [| auto]. unfold avg. rewrite rsum_pairs by exact He. rewrite map_length, Hl, He. unfold Rdiv. ring.
  - intros Hc Hne. assert (HH : forall l : list R, l <> [] -> INR (length l) <> 0) by (intros l Hl; apply not_0_INR; destruct l; [congruence | discriminate]).
    destruct a as [| u [| u2 a]].
    + destruct b as [| v [| v2 b]]; try discriminate. injection Hc as <-. destruct (Hne eq_refl).
    + injection Hc as <-. assert (Hb : b <> []) by (intros ->; apply Hne; reflexivity). split; [| split; [discriminate | exact Hb]].
      unfold avg. rewrite rsum_id_const, map_length. cbn [length rsum]. change (INR 1) with 1. field. apply HH. exact Hb.
    + destruct b as [| v [| v2 b]]; try discriminate. assert (Hc' : map (fun u => u - v) (u :: u2 :: a) = c) by congruence. subst c.
      split; [| split; discriminate]. unfold avg. rewrite rsum_id_const2, map_length. change (rsum [v] (fun v => v)) with (v + 0). change (INR (length [v])) with 1.
      field. apply HH. discriminate.
Qed.

Lemma loss_value {A} (f : A -> R) pos neg v : pcd_loss f pos neg = Some v -> v = avg (map f neg) - avg (map f pos) /\ pos <> [] /\ neg <> [].
Proof.
  unfold pcd_loss. destruct (vsub (map f neg) (map f pos)) as [[| u l] |] eqn:Ev; try discriminate. intros H. injection H as <-.
  destruct (avg_vsub _ _ _ Ev ltac:(discriminate)) as (H1 & H2 & H3). split; [exact H1 |]. split; intros ->; [apply H3 | apply H2]; reflexivity.
Qed.

(** Whether the loss is defined depends on the sizes only. *)
Definition sizes_ok (p n : nat) : bool := (negb (Nat.eqb p 0) && negb (Nat.eqb n 0) && (Nat.eqb p n || Nat.eqb p 1 || Nat.eqb n 1))%bool.

Lemma loss_defined {A} (f : A -> R) pos neg : pcd_loss f pos neg = if sizes_ok (length pos) (length neg) then Some (avg (map f neg) - avg (map f pos)) else None.
Proof.
  assert (HS : (exists v, pcd_loss f pos neg = Some v) <-> sizes_ok (length pos) (length neg) = true).
  { unfold pcd_loss, vsub, sizes_ok. rewrite !map_length.
    destruct neg as [| a [| a2 neg]], pos as [| b [| b2 pos]]; cbn [length map Nat.eqb negb andb orb combine];
      try (split; [intros [v Hv]; discriminate | discriminate]); try (split; [reflexivity | intros _; eexists; reflexivity]).
    destruct (Nat.eqb_spec (length neg) (length pos)) as [He | Hn].
    - rewrite He, Nat.eqb_refl. split; [reflexivity |]. intros _. eexists. reflexivity.
    - destruct (Nat.eqb_spec (length pos) (length neg)) as [He2 | _]; [lia |]. split; [intros [v Hv]; discriminate | discriminate]. }
  destruct (sizes_ok (length pos) (length neg)).
  - destruct (proj2 HS eq_refl) as [v Hv]. rewrite Hv. f_equal. apply (loss_value f pos neg v Hv).
  - destruct (pcd_loss f pos neg) as [v |] eqn:Ev; [| reflexivity]. assert (false = true) by (apply HS; exists v; reflexivity). discriminate.
Qed.

(** ** Derivatives *)
Lemma dlim_rsum {A} (l : list A) (f : R -> A -> R) (f' : A -> R) t : (forall x, In x l -> derivable_pt_lim (fun s => f s x) t (f' x)) ->
  derivable_pt_lim (fun s => rsum l (f s)) t (rsum l f').
Proof.
  induction l as [| a l IH]; intros H; cbn [rsum]; [apply derivable_pt_lim_const |].
  apply (derivable_pt_lim_plus (fun s => f s a) (fun s => rsum l (f s))); [apply H; left; reflexivity | apply IH; intros x Hx; apply H; right; exact Hx].
Qed.

Lemma dlim_scal c f t l : derivable_pt_lim f t l -> derivable_pt_lim (fun s => c * f s) t (c * l).
Proof. intros H. exact (derivable_pt_lim_scal f c t l H). Qed.
Lemma dlim_minus f g t l m : derivable_pt_lim f t l -> derivable_pt_lim g t m -> derivable_pt_lim (fun s => f s - g s) t (l - m).
Proof. intros H1 H2. exact (derivable_pt_lim_minus f g t l m H1 H2). Qed.
Lemma dlim_opp f t l : derivable_pt_lim f t l -> derivable_pt_lim (fun s => - f s) t (- l).
Proof. intros H1. exact (derivable_pt_lim_opp f t l H1). Qed.
Lemma dlim_ext f g t l : (forall s, f s = g s) -> derivable_pt_lim f t l -> derivable_pt_lim g t l.
Proof. intros H Hf eps He. destruct (Hf eps He) as [d Hd]. exists d. intros h H1 H2. rewrite <- !H. apply Hd; assumption. Qed.
Lemma dlim_exp f t l : derivable_pt_lim f t l -> derivable_pt_lim (fun s => exp (f s)) t (exp (f t) * l).
Proof. intros H. exact (derivable_pt_lim_comp f exp t l (exp (f t)) H (derivable_pt_lim_exp (f t))). Qed.
Lemma dlim_ln f t l : 0 < f t -> derivable_pt_lim f t l -> derivable_pt_lim (fun s => ln (f s)) t (/ f t * l).
Proof. intros Hp H. exact (derivable_pt_lim_comp f ln t l (/ f t) H (derivable_pt_lim_ln (f t) Hp)). Qed.

Lemma dlim_avg {A} (f : R -> A -> R) (f' : A -> R) l t : (forall x, In x l -> derivable_pt_lim (fun s => f s x) t (f' x)) ->
  derivable_pt_lim (fun s => avg (map (f s) l)) t (avg (map f' l)).
Proof.
  intros H.
  assert (Ha : forall h, avg (map h l) = / INR (length l) * rsum l h) by (intros h; unfold avg; rewrite map_length, rsum_map; unfold Rdiv; apply Rmult_comm).
  rewrite Ha. apply (dlim_ext (fun s => / INR (length l) * rsum l (f s))); [intros s; rewrite Ha; reflexivity |].
  apply dlim_scal, dlim_rsum. exact H.
Qed.

Theorem loss_gradient {A} (f : R -> A -> R) (f' : A -> R) t pos neg g : (forall x, In x pos \/ In x neg -> derivable_pt_lim (fun s => f s x) t (f' x)) ->
  (loss_grad (fun s => pcd_loss (f s) pos neg) t g <-> sizes_ok (length pos) (length neg) = true /\ g = avg (map f' neg) - avg (map f' pos)).
Proof.
  intros Hd.
  assert (HL : derivable_pt_lim (fun s => avg (map (f s) neg) - avg (map (f s) pos)) t (avg (map f' neg) - avg (map f' pos))).
  { apply dlim_minus; apply dlim_avg; intros x Hx; apply Hd; auto. }
  split.
  - intros (L & H1 & H2). destruct (sizes_ok (length pos) (length neg)) eqn:Es; [| specialize (H1 0); rewrite loss_defined, Es in H1; discriminate].
    split; [reflexivity |]. apply (uniqueness_limite L t); [exact H2 |]. eapply dlim_ext; [| exact HL]. intros s. specialize (H1 s). rewrite loss_defined, Es in H1. congruence.
  - intros [Es ->]. exists (fun s => avg (map (f s) neg) - avg (map (f s) pos)). split; [| exact HL]. intros s. rewrite loss_defined, Es. reflexivity.
Qed.

(** ** The likelihood *)
Theorem lik_gradient {A} (S : list A) (f : R -> A -> R) (f' : A -> R) (data : dist A) t : S <> [] -> mass data = 1 ->
  (forall x w, In (x, w) data -> In x S) -> (forall x, In x S -> derivable_pt_lim (fun s => f s x) t (f' x)) ->
  derivable_pt_lim (neg_log_lik S f data) t (mean S (fun x => exp (f t x)) f' - E data f').
Proof.
  intros HS Hm Hsup Hd.
  assert (HZ : forall s, 0 < rsum S (fun y => exp (f s y))) by (intros s; apply rsum_pos; [exact HS | intros; apply exp_pos]).
  apply (dlim_ext (fun s => ln (rsum S (fun y => exp (f s y))) - E data (f s))).
  - intros s. unfold neg_log_lik. rewrite (E_ext data (fun x => ln (exp (f s x) / rsum S (fun y => exp (f s y)))) (fun x => f s x - ln (rsum S (fun y => exp (f s y))))).
    + rewrite E_minus, E_const, Hm. ring.
    + intros x. unfold Rdiv. rewrite ln_mult by (try apply exp_pos; apply Rinv_0_lt_compat, HZ). rewrite ln_exp, ln_Rinv by apply HZ. ring.
  - apply dlim_minus.
    + replace (mean S (fun x => exp (f t x)) f') with (/ rsum S (fun y => exp (f t y)) * rsum S (fun y => exp (f t y) * f' y)) by (unfold mean, Rdiv; ring).
      apply (dlim_ln (fun s => rsum S (fun y => exp (f s y)))); [apply HZ |]. apply dlim_rsum. intros x Hx. apply dlim_exp, Hd. exact Hx.
    + unfold E. apply (dlim_rsum data (fun s p => snd p * f s (fst p)) (fun p => snd p * f' (fst p))). intros [x w] Hx. cbn [fst snd]. apply dlim_scal, Hd. exact (Hsup x w Hx).
Qed.

(** ** Expected gradients *)
Lemma avg_nth {A} (h : A -> R) (a0 : A) l n : length l = n -> avg (map h l) = rsum (seq 0 n) (fun i => h (nth i l a0)) / INR n.
Proof. intros <-. unfold avg. rewrite map_length, rsum_map. f_equal. exact (rsum_nth l a0 h). Qed.

Lemma E_avg {A B} (D : dist A) (pr : A -> list B) (h : B -> R) (b0 : B) n m : (0 < n)%nat -> (forall a w, In (a, w) D -> length (pr a) = n) ->
  (forall i, (i < n)%nat -> E D (fun a => h (nth i (pr a) b0)) = m) -> E D (fun a => avg (map h (pr a))) = m.
Proof.
  intros Hn Hl Hm. rewrite (E_ext_in _ _ (fun a => / INR n * rsum (seq 0 n) (fun i => h (nth i (pr a) b0)))).
  - rewrite E_scal, E_rsum. rewrite (rsum_ext _ _ (fun _ => m)) by (intros i Hi; apply in_seq in Hi; apply Hm; lia).
    rewrite rsum_const, seq_length. field. apply not_0_INR. lia.
  - intros a w Ha. rewrite (avg_nth h b0 (pr a) n (Hl a w Ha)). unfold Rdiv. ring.
Qed.

Theorem gradient_unbiased {A} (S : list A) (f : R -> A -> R) (f' : A -> R) (data : dist A) t (D : dist (list A * list A)) G p n (a0 : A) :
  S <> [] -> mass data = 1 -> (forall x w, In (x, w) data -> In x S) -> (forall x, In x S -> derivable_pt_lim (fun s => f s x) t (f' x)) ->
  (0 < p)%nat -> (0 < n)%nat ->
  (forall b w, In (b, w) D -> length (fst b) = p /\ length (snd b) = n /\ forall x, In x (fst b) \/ In x (snd b) -> In x S) ->
  (forall i, (i < p)%nat -> E D (fun b => f' (nth i (fst b) a0)) = E data f') ->
  (forall i, (i < n)%nat -> E D (fun b => f' (nth i (snd b) a0)) = mean S (fun x => exp (f t x)) f') ->
  (forall b w, In (b, w) D -> loss_grad (fun s => pcd_loss (f s) (fst b) (snd b)) t (G b)) ->
  derivable_pt_lim (neg_log_lik S f data) t (E D G).
Proof.
  intros HS Hm Hsup Hd Hp Hn HD Hpos Hneg HG.
  replace (E D G) with (mean S (fun x => exp (f t x)) f' - E data f'); [apply lik_gradient; assumption |].
  rewrite (E_ext_in D G (fun b => avg (map f' (snd b)) - avg (map f' (fst b)))).
  - rewrite E_minus. f_equal; symmetry.
    + apply (E_avg D snd f' a0 n); [exact Hn | intros b w Hb; apply (HD b w Hb) | exact Hneg].
    + apply (E_avg D fst f' a0 p); [exact Hp | intros b w Hb; apply (HD b w Hb) | exact Hpos].
  - intros b w Hb. destruct (HD b w Hb) as (_ & _ & Hin). apply (loss_gradient f f' t (fst b) (snd b) (G b)); [intros x Hx; apply Hd, Hin; exact Hx | exact (HG b w Hb)].
Qed.

(** ** Shards *)
Lemma avg_concat (ls : list (list R)) B : (0 < B)%nat -> (forall l, In l ls -> length l = B) -> avg (concat ls) = avg (map avg ls).
Proof.
  intros HB Hl. destruct ls as [| l0 ls0]; [reflexivity |]. set (ls := l0 :: ls0) in *.
  assert (Hlen : length (concat ls) = (length ls * B)%nat).
  { clearbody ls. induction ls as [| l ls IH]; [reflexivity |]. cbn [concat length]. rewrite app_length, IH, (Hl l (or_introl eq_refl)) by (intros; apply Hl; right; assumption). lia. }
  assert (Hs : rsum (concat ls) (fun v => v) = INR B * rsum (map avg ls) (fun v => v)).
  { clear Hlen. clearbody ls. induction ls as [| l ls IH]; [cbn; ring |]. cbn [concat map rsum]. rewrite rsum_app, IH by (intros; apply Hl; right; assumption).
    unfold avg at 2. rewrite (Hl l (or_introl eq_refl)). field. apply not_0_INR. lia. }
  unfold avg at 1 2. rewrite Hlen, map_length, Hs, mult_INR. field. split; apply not_0_INR; [unfold ls; discriminate | lia].
Qed.

Theorem shards_gradient {A} (f : R -> A -> R) (f' : A -> R) t (shards : list (list A * list A)) grads B : (0 < B)%nat -> shards <> [] ->
  (forall sh, In sh shards -> length (fst sh) = B /\ length (snd sh) = B) ->
  (forall sh x, In sh shards -> In x (fst sh) \/ In x (snd sh) -> derivable_pt_lim (fun s => f s x) t (f' x)) ->
  Forall2 (fun sh g => loss_grad (fun s => pcd_loss (f s) (fst sh) (snd sh)) t g) shards grads ->
  loss_grad (fun s => pcd_loss (f s) (concat (map fst shards)) (concat (map snd shards))) t (pmean grads).
Proof.
  intros HB Hne Hl Hd HF.
  assert (Hg : grads = map (fun sh => avg (map f' (snd sh)) - avg (map f' (fst sh))) shards).
  { clear Hne. induction HF as [| sh g shards grads Hsh HF IH]; [reflexivity |]. cbn [map]. f_equal.
    - apply (loss_gradient f f' t (fst sh) (snd sh) g); [intros x Hx; apply (Hd sh x); [left; reflexivity | exact Hx] | exact Hsh].
    - apply IH; [intros; apply Hl; right; assumption | intros sh' x Hi Hx; apply (Hd sh' x); [right; exact Hi | exact Hx]]. }
  assert (Hlen : forall pr : list A * list A -> list A, (forall sh, In sh shards -> length (pr sh) = B) -> length (concat (map pr shards)) = (length shards * B)%nat).
  { intros pr Hpr. clear -Hpr. induction shards as [| sh shards IH]; [reflexivity |]. cbn [map concat length]. rewrite app_length, IH, (Hpr sh (or_introl eq_refl)) by (intros; apply Hpr; right; assumption). lia. }
  assert (Hdc : forall x, In x (concat (map fst shards)) \/ In x (concat (map snd shards)) -> derivable_pt_lim (fun s => f s x) t (f' x)).
  { intros x [Hx | Hx]; apply in_concat in Hx; destruct Hx as (l & Hl1 & Hx); apply in_map_iff in Hl1; destruct Hl1 as (sh & <- & Hsh); apply (Hd sh x Hsh); auto. }
  apply (proj2 (loss_gradient f f' t _ _ _ Hdc)).
  split.
  - rewrite !Hlen by (intros sh Hsh; apply (Hl sh Hsh)). unfold sizes_ok. rewrite Nat.eqb_refl.
    destruct (Nat.eqb_spec (length shards * B) 0) as [H0 | _]; [destruct shards; [congruence | cbn [length] in H0; nia] | reflexivity].
  - rewrite !concat_map, !map_map. rewrite !(avg_concat _ B HB) by (intros l Hi; apply in_map_iff in Hi; destruct Hi as (sh & <- & Hsh); rewrite map_length; apply (Hl sh Hsh)).
    rewrite !map_map. unfold pmean, avg at 1. rewrite Hg, map_length, rsum_map, rsum_minus. unfold avg at 3 5. rewrite !map_length, !rsum_map. unfold Rdiv. ring.
Qed.

(** ** Persistent chains *)
Lemma E_indep_nth {A} (a0 : A) (l : list (dist A)) i h : (forall dd, In dd l -> is_prob dd) -> (i < length l)%nat ->
  E (indep l) (fun u => h (nth i u a0)) = E (nth i l []) h.
Proof.
  intros Hp Hi. pose proof (E_indep_marginal a0 l Hp [i] (fun v => h (nth 0 v a0)) (NoDup_cons i (@in_nil nat i) (NoDup_nil nat)) (Forall_cons i Hi (Forall_nil _))) as H.
  cbn [map nth] in H. rewrite H. cbn [indep]. rewrite E_bind. apply E_ext. intros a. rewrite E_dmap, E_ret. reflexivity.
Qed.

Lemma batch_support {A} (S : list A) (k : A -> dist A) xs ys w : proper S k -> (forall x, In x xs -> In x S) -> In (ys, w) (batch_step k xs) ->
  length ys = length xs /\ forall y, In y ys -> In y S.
Proof.
  intros Hk. unfold batch_step. revert ys w. induction xs as [| x xs IH]; intros ys w Hxs Hys.
  - destruct Hys as [Hys | []]. injection Hys as <- _. split; [reflexivity | intros y []].
  - cbn [map indep] in Hys. unfold bind in Hys. apply in_flat_map in Hys. destruct Hys as ([a u1] & Ha & Hys). apply in_map_iff in Hys.
    destruct Hys as ([l v] & Heq & Hl). cbn [fst snd] in *. injection Heq as -> _. unfold dmap in Hl. apply in_map_iff in Hl.
    destruct Hl as ([l' v'] & Heq & Hl). cbn [fst snd] in Heq. injection Heq as <- _.
    destruct (IH l' v' (fun z Hz => Hxs z (or_intror Hz)) Hl) as [H1 H2]. split; [cbn [length]; lia |].
    intros y [<- | Hy]; [exact (proj2 (Hk x (Hxs x (or_introl eq_refl))) a u1 Ha) | exact (H2 y Hy)].
Qed.

Lemma pcd_support {A} (S : list A) (k : A -> dist A) n : proper S k -> forall t xs ys w, (forall x, In x xs -> In x S) ->
  In (ys, w) (run_seq (fun _ => batch_step k) n t xs) -> length ys = length xs /\ forall y, In y ys -> In y S.
Proof.
  intros Hk. induction n as [| n IH]; intros t xs ys w Hxs Hys.
  - destruct Hys as [Hys | []]. injection Hys as <- _. auto.
  - cbn [run_seq] in Hys. unfold bind in Hys. apply in_flat_map in Hys. destruct Hys as ([zs u1] & Hz & Hys). apply in_map_iff in Hys.
    destruct Hys as ([l v] & Heq & Hl). cbn [fst snd] in *. injection Heq as -> _.
    destruct (batch_support S k xs zs u1 Hk Hxs Hz) as [H1 H2]. destruct (IH _ zs ys v H2 Hl) as [H3 H4]. split; [lia | exact H4].
Qed.

Lemma pcd_marginal {A} (S : list A) (k : A -> dist A) (a0 : A) i h n : proper S k -> forall t xs, (forall x, In x xs -> In x S) -> (i < length xs)%nat ->
  E (run_seq (fun _ => batch_step k) n t xs) (fun ys => h (nth i ys a0)) = E (run_seq (fun _ => k) n t (nth i xs a0)) h.
Proof.
  intros Hk. induction n as [| n IH]; intros t xs Hxs Hi; cbn [run_seq]; [rewrite !E_ret; reflexivity |].
  rewrite !E_bind. rewrite (E_ext_in _ _ (fun zs => E (run_seq (fun _ => k) n (Datatypes.S t) (nth i zs a0)) h)).
  - unfold batch_step. rewrite (E_indep_nth a0 (map k xs) i (fun z => E (run_seq (fun _ => k) n (Datatypes.S t) z) h)).
    + rewrite (nth_indep (map k xs) [] (k a0)) by (rewrite map_length; exact Hi). rewrite map_nth. reflexivity.
    + intros dd Hdd. apply in_map_iff in Hdd. destruct Hdd as (x & <- & Hx). apply (Hk x (Hxs x Hx)).
    + rewrite map_length. exact Hi.
  - intros zs w Hz. destruct (batch_support S k xs zs w Hk Hxs Hz) as [H1 H2]. apply IH; [exact H2 | lia].
Qed.

Lemma pcd_prob {A} (S : list A) (k : A -> dist A) n : proper S k -> forall t xs, (forall x, In x xs -> In x S) -> is_prob (run_seq (fun _ => batch_step k) n t xs).
Proof.
  intros Hk. induction n as [| n IH]; intros t xs Hxs; cbn [run_seq]; [apply is_prob_ret |]. apply is_prob_bind.
  - apply is_prob_indep. intros dd Hdd. apply in_map_iff in Hdd. destruct Hdd as (x & <- & Hx). apply (Hk x (Hxs x Hx)).
  - intros zs w Hz. apply IH. apply (batch_support S k xs zs w Hk Hxs Hz).
Qed.

Definition pair_law {A B} (D1 : dist A) (D2 : dist B) : dist (A * B) := bind D1 (fun a => dmap (fun b => (a, b)) D2).

(** Gradient after [n] sampler steps from any stored batch against the likelihood gradient. *)
Theorem pcd_gradient_limit {A} (S : list A) (f : R -> A -> R) (f' : A -> R) (data : dist A) t (k : A -> dist A) (a0 : A) :
  S <> [] -> mass data = 1 -> (forall x w, In (x, w) data -> In x S) -> (forall x, In x S -> derivable_pt_lim (fun s => f s x) t (f' x)) ->
  proper S k -> converges S (fun x => exp (f t x)) (fun _ => k) ->
  forall eps, 0 < eps -> exists N, forall n B xs (P : dist (list A)) G g, (N <= n)%nat -> (0 < B)%nat -> length xs = B -> (forall x, In x xs -> In x S) ->
  mass P = 1 -> (forall l w, In (l, w) P -> length l = B /\ forall x, In x l -> In x S) ->
  (forall i, (i < B)%nat -> E P (fun l => f' (nth i l a0)) = E data f') ->
  (forall pos neg, length pos = B -> length neg = B -> (forall x, In x pos \/ In x neg -> In x S) -> loss_grad (fun s => pcd_loss (f s) pos neg) t (G pos neg)) ->
  derivable_pt_lim (neg_log_lik S f data) t g ->
  Rabs (E P (fun pos => E (pcd_batch k n xs) (G pos)) - g) <= eps.
Proof.
  intros HS Hm Hsup Hd Hk Hc eps Heps.
  set (M := 1 + rsum S (fun x => Rabs (f' x))).
  assert (HM : forall x, In x S -> Rabs (f' x) <= M).
  { intros x Hx. unfold M. pose proof (rsum_ge_term S (fun x => Rabs (f' x)) x Hx (fun z _ => Rabs_pos (f' z))). cbv beta in H. lra. }
  assert (HM1 : 1 <= M) by (unfold M; pose proof (rsum_nonneg S (fun x => Rabs (f' x)) (fun z _ => Rabs_pos (f' z))); lra).
  destruct (Hc (eps / M) ltac:(apply Rdiv_lt_0_compat; lra)) as [N HN].
  exists N. intros n B xs P G g Hn HB Hl Hxs HmP HP Hmarg HG Hg.
  rewrite (uniqueness_limite _ _ _ _ Hg (lik_gradient S f f' data t HS Hm Hsup Hd)).
  assert (HGv : forall pos neg, length pos = B -> length neg = B -> (forall x, In x pos \/ In x neg -> In x S) -> G pos neg = avg (map f' neg) - avg (map f' pos)).
  { intros pos neg H1 H2 H3. apply (loss_gradient f f' t pos neg (G pos neg)); [intros x Hx; apply Hd, H3; exact Hx | apply HG; assumption]. }
  rewrite (E_ext_in P _ (fun pos => E (pcd_batch k n xs) (fun neg => avg (map f' neg)) - avg (map f' pos))).
  2:{ intros pos w Hpos. destruct (HP pos w Hpos) as [H1 H2]. rewrite (E_ext_in (pcd_batch k n xs) (G pos) (fun neg => avg (map f' neg) - avg (map f' pos))).
      - rewrite E_minus, E_const, (proj2 (pcd_prob S k n Hk 0 xs Hxs) : mass (pcd_batch k n xs) = 1). ring.
      - intros neg u Hneg. destruct (pcd_support S k n Hk 0 xs neg u Hxs Hneg) as [H3 H4]. apply HGv; [exact H1 | lia | intros x [Hx | Hx]; auto]. }
  rewrite E_minus, E_const, HmP, Rmult_1_l. rewrite (E_avg P (fun l => l) f' a0 B (E data f') HB) by (try exact Hmarg; intros l w Hl'; apply (HP l w Hl')).
  replace (_ - _ - _) with (E (pcd_batch k n xs) (fun neg => avg (map f' neg)) - mean S (fun x => exp (f t x)) f') by ring.
  rewrite (E_ext_in (pcd_batch k n xs) _ (fun neg => / INR B * rsum (seq 0 B) (fun i => f' (nth i neg a0)))).
  2:{ intros neg u Hneg. destruct (pcd_support S k n Hk 0 xs neg u Hxs Hneg) as [H3 H4]. rewrite (avg_nth f' a0 neg B ltac:(lia)). unfold Rdiv. ring. }
  rewrite E_scal, E_rsum.
  rewrite (rsum_ext _ _ (fun i => E (run_seq (fun _ => k) n 0 (nth i xs a0)) f')) by (intros i Hi; apply in_seq in Hi; apply (pcd_marginal S); [exact Hk | exact Hxs | lia]).
  set (mu := mean S (fun x => exp (f t x)) f').
  assert (HBR : 0 < INR B) by (apply lt_0_INR; exact HB).
  replace (/ INR B * rsum (seq 0 B) (fun i => E (run_seq (fun _ => k) n 0 (nth i xs a0)) f') - mu)
    with (/ INR B * rsum (seq 0 B) (fun i => E (run_seq (fun _ => k) n 0 (nth i xs a0)) f' - mu)).
  2:{ rewrite rsum_minus, rsum_const, seq_length. field. lra. }
  rewrite Rabs_mult, (Rabs_right (/ INR B)) by (left; apply Rinv_0_lt_compat; exact HBR).
  apply Rle_trans with (/ INR B * (INR B * eps)); [| right; field; lra].
  apply Rmult_le_compat_l; [left; apply Rinv_0_lt_compat; exact HBR |]. eapply Rle_trans; [apply rsum_abs |].
  replace (INR B * eps) with (rsum (seq 0 B) (fun _ => eps)) by (rewrite rsum_const, seq_length; reflexivity). apply rsum_le. intros i Hi. apply in_seq in Hi.
  assert (Hin : In (nth i xs a0) S) by (apply Hxs, nth_In; lia).
  specialize (HN n (nth i xs a0) (fun x => / M * f' x) Hn Hin).
  rewrite E_scal in HN. replace (mean S (fun x => exp (f t x)) (fun x => / M * f' x)) with (/ M * mu) in HN.
  2:{ unfold mu, mean. rewrite (rsum_ext S (fun y => exp (f t y) * (/ M * f' y)) (fun y => / M * (exp (f t y) * f' y))) by (intros; ring). rewrite rsum_scal. unfold Rdiv. ring. }
  assert (HN' : Rabs (/ M * E (run_seq (fun _ => k) n 0 (nth i xs a0)) f' - / M * mu) <= eps / M).
  { apply HN. intros y Hy. rewrite Rabs_mult, (Rabs_right (/ M)) by (left; apply Rinv_0_lt_compat; lra). apply (Rmult_le_reg_l M); [lra |].
    rewrite <- Rmult_assoc, Rinv_r by lra. specialize (HM y Hy). lra. }
  rewrite <- Rmult_minus_distr_l, Rabs_mult, (Rabs_right (/ M)) in HN' by (left; apply Rinv_0_lt_compat; lra).
  apply (Rmult_le_reg_l (/ M)); [apply Rinv_0_lt_compat; lra |]. unfold Rdiv in HN'. lra.
Qed.

(** Chains already at the current target stay there, so the gradient is exact for any number of steps. *)
Theorem pcd_stationary {A} (S : list A) (pi h : A -> R) (k : A -> dist A) (a0 : A) (D : dist (list A)) n i B : proper S k -> invariant S pi k ->
  (forall l w, In (l, w) D -> length l = B /\ forall x, In x l -> In x S) -> (i < B)%nat ->
  (forall h, E D (fun l => h (nth i l a0)) = mean S pi h) ->
  E (bind D (pcd_batch k n)) (fun l => h (nth i l a0)) = mean S pi h.
Proof.
  intros Hk Hinv HD Hi Hst. rewrite E_bind.
  rewrite (E_ext_in D _ (fun l => E (run_seq (fun _ => k) n 0 (nth i l a0)) h)).
  2:{ intros l w Hl. destruct (HD l w Hl) as [H1 H2]. apply (pcd_marginal S); [exact Hk | exact H2 | lia]. }
  rewrite (Hst (fun x => E (run_seq (fun _ => k) n 0 x) h)). unfold mean. f_equal.
  generalize 0%nat as t. induction n as [| n IH]; intros t; cbn [run_seq].
  - apply rsum_ext. intros x _. rewrite E_ret. reflexivity.
  - rewrite <- (IH (Datatypes.S t)). rewrite <- (Hinv (fun y => E (run_seq (fun _ => k) n (Datatypes.S t) y) h)). apply rsum_ext. intros x _. rewrite E_bind. reflexivity.
Qed.

(** ** The restricted Boltzmann machine *)
Lemma sigmoid_inv z : sigmoid z = / (1 + exp z) * exp z.
Proof. unfold sigmoid, Rdiv. ring. Qed.

Theorem rbm_line_derivative nv nh w dw bv dbv bh dbh v : derivable_pt_lim (fun t => rbm_line nv nh w dw bv dbv bh dbh t v) 0
  (rsum (seq 0 nh) (fun j => sigmoid (pre_h nv w bh v j) * (rsum (seq 0 nv) (fun i => at_ v i * dw i j) + dbh j)) + rsum (seq 0 nv) (fun i => at_ v i * dbv i)).
Proof.
  assert (Hid : forall a b, derivable_pt_lim (fun t => a + t * b) 0 b).
  { intros a b. assert (H : derivable_pt_lim (fun t => a + t * b) 0 (0 + b * 1)).
    { apply (derivable_pt_lim_plus (fun _ => a) (fun t => t * b)); [apply derivable_pt_lim_const |].
      apply (dlim_ext (fun t => b * t)); [intros; ring |]. apply dlim_scal. apply derivable_pt_lim_id. }
    replace (0 + b * 1) with b in H by ring. exact H. }
  unfold rbm_line, rbm_call.
  apply (derivable_pt_lim_plus (fun t => rsum (seq 0 nh) (fun j => softplus (pre_h nv (fun i j => w i j + t * dw i j) (fun j => bh j + t * dbh j) v j)))
           (fun t => rsum (seq 0 nv) (fun i => at_ v i * (bv i + t * dbv i)))).
  - apply (dlim_rsum (seq 0 nh) (fun t j => softplus (pre_h nv (fun i j => w i j + t * dw i j) (fun j => bh j + t * dbh j) v j))). intros j _. unfold softplus, pre_h.
    set (F := fun t => rsum (seq 0 nv) (fun i => at_ v i * (w i j + t * dw i j)) + (bh j + t * dbh j)).
    set (L := rsum (seq 0 nv) (fun i => at_ v i * dw i j) + dbh j).
    assert (HF : derivable_pt_lim F 0 L).
    { apply (derivable_pt_lim_plus (fun t => rsum (seq 0 nv) (fun i => at_ v i * (w i j + t * dw i j))) (fun t => bh j + t * dbh j)); [| apply Hid].
      apply (dlim_rsum (seq 0 nv) (fun t i => at_ v i * (w i j + t * dw i j))). intros i _. apply (dlim_scal (at_ v i) (fun t => w i j + t * dw i j)). apply Hid. }
    assert (HF0 : F 0 = rsum (seq 0 nv) (fun i => at_ v i * w i j) + bh j).
    { unfold F. f_equal; [| ring]. apply rsum_ext. intros; ring. }
    replace (sigmoid (rsum (seq 0 nv) (fun i => at_ v i * w i j) + bh j) * L) with (/ (1 + exp (F 0)) * (0 + exp (F 0) * L)) by (rewrite <- HF0, sigmoid_inv; ring).
    apply (dlim_ln (fun t => 1 + exp (F t))); [apply one_plus_exp |].
    apply (derivable_pt_lim_plus (fun _ => 1) (fun t => exp (F t))); [apply derivable_pt_lim_const | apply dlim_exp; exact HF].
  - apply (dlim_rsum (seq 0 nv) (fun t i => at_ v i * (bv i + t * dbv i))). intros i _. apply (dlim_scal (at_ v i) (fun t => bv i + t * dbv i)). apply Hid.
Qed.

Lemma bern_vec_support ps h w : In (h, w) (bern_vec ps) -> In h (states (length ps) 2).
Proof.
  revert h w. induction ps as [| p ps IH]; intros h w Hh.
  - destruct Hh as [Hh | []]. injection Hh as <- _. left. reflexivity.
  - unfold bern_vec in Hh. cbn [map indep] in Hh. unfold bind in Hh. apply in_flat_map in Hh. destruct Hh as ([a u1] & Ha & Hh). apply in_map_iff in Hh.
    destruct Hh as ([l v] & Heq & Hl). cbn [fst snd] in *. injection Heq as -> _. unfold dmap in Hl at 1. apply in_map_iff in Hl.
    destruct Hl as ([l' v'] & Heq & Hl). cbn [fst snd] in Heq. injection Heq as <- _. specialize (IH l' v' Hl). apply in_states in IH. destruct IH as [H1 H2].
    apply in_states. split; [cbn [length]; lia |]. constructor; [| exact H2]. unfold dmap in Ha. apply in_map_iff in Ha. destruct Ha as ([b q] & Heq & _). cbn [fst snd] in Heq.
    injection Heq as <- _. destruct b; lia.
Qed.

Lemma rbm_block_proper nv nh w bv bh : proper (states nv 2) (rbm_block_step nv nh w bv bh).
Proof.
  intros x Hx. split; [apply rbm_block_prob |]. intros y q Hy. unfold rbm_block_step, bind in Hy. apply in_flat_map in Hy. destruct Hy as ([h u] & _ & Hy).
  apply in_map_iff in Hy. destruct Hy as ([z v] & Heq & Hz). cbn [fst snd] in *. injection Heq as -> _. apply bern_vec_support in Hz. rewrite map_length, seq_length in Hz. exact Hz.
Qed.

Lemma E_pos_in {A} (d : dist A) h : is_prob d -> (forall a w, In (a, w) d -> 0 < h a) -> 0 < E d h.
Proof.
  intros [P1 P2] Hh.
  assert (Hm : exists a w, In (a, w) d /\ 0 < w).
  { destruct (Exists_dec (fun p : A * R => 0 < snd p) d (fun p => Rlt_dec 0 (snd p))) as [H | H].
    - apply Exists_exists in H. destruct H as ([a w] & H1 & H2). exists a, w. auto.
    - exfalso. assert (mass d <= 0); [| lra]. unfold mass, E. rewrite <- Forall_Exists_neg in H. rewrite Forall_forall in H.
      replace 0 with (rsum d (fun _ => 0)) by (rewrite rsum_const; ring). apply rsum_le. intros p Hp. specialize (H p Hp). lra. }
  destruct Hm as (a & w & Ha & Hw). unfold E. apply Rlt_le_trans with (w * h a); [apply Rmult_lt_0_compat; [exact Hw | exact (Hh a w Ha)] |].
  apply (rsum_ge_term d (fun p => snd p * h (fst p)) (a, w) Ha). intros [b q] Hb. cbn [fst snd]. apply Rmult_le_pos; [exact (P1 _ Hb) | left; exact (Hh b q Hb)].
Qed.

Theorem rbm_block_converges nv nh w bv bh : converges (states nv 2) (fun v => exp (rbm_call nv nh w bv bh v)) (fun _ => rbm_block_step nv nh w bv bh).
Proof.
  apply homog_converges; [lia | apply rbm_block_proper | apply rbm_block_invariant |].
  intros x y Hx Hy. unfold can_move, rbm_block_step. rewrite E_bind. apply E_pos_in.
  - unfold step_h. rewrite <- (map_map (pre_h nv w bh x) sigmoid). apply bern_vec_prob.
  - intros h q _. unfold step_v. rewrite <- (map_map (pre_v nh w bv h) sigmoid), bern_vec_law, map_length, seq_length.
    set (zs := map (pre_v nh w bv h) (seq 0 nv)).
    assert (HP : 0 < rprod zs (fun z => 1 + exp z)) by (apply rprod_pos; intros; apply one_plus_exp).
    eapply Rlt_le_trans; [| apply (rsum_ge_term _ _ y Hy)].
    + cbv beta. destruct (sdec y y) as [_ | n]; [| congruence]. rewrite Rmult_1_r. apply Rdiv_lt_0_compat; [apply exp_pos | exact HP].
    + intros z _. apply Rmult_le_pos; [left; apply Rdiv_lt_0_compat; [apply exp_pos | exact HP] | destruct sdec; lra].
Qed.

Theorem pcd_gradient_exact {A} (S : list A) (f : R -> A -> R) (f' : A -> R) (data : dist A) t (k : A -> dist A) (a0 : A) n B (P D : dist (list A)) G :
  S <> [] -> mass data = 1 -> (forall x w, In (x, w) data -> In x S) -> (forall x, In x S -> derivable_pt_lim (fun s => f s x) t (f' x)) ->
  proper S k -> invariant S (fun x => exp (f t x)) k -> (0 < B)%nat ->
  mass P = 1 -> (forall l w, In (l, w) P -> length l = B /\ forall x, In x l -> In x S) ->
  (forall i h, (i < B)%nat -> E P (fun l => h (nth i l a0)) = E data h) ->
  mass D = 1 -> (forall l w, In (l, w) D -> length l = B /\ forall x, In x l -> In x S) ->
  (forall i h, (i < B)%nat -> E D (fun l => h (nth i l a0)) = mean S (fun x => exp (f t x)) h) ->
  (forall pos neg, length pos = B -> length neg = B -> (forall x, In x pos \/ In x neg -> In x S) -> loss_grad (fun s => pcd_loss (f s) pos neg) t (G pos neg)) ->
  derivable_pt_lim (neg_log_lik S f data) t (E P (fun pos => E (bind D (pcd_batch k n)) (G pos))).
Proof.
  intros HS Hm Hsup Hd Hk Hinv HB HmP HP HPm HmD HD HDm HG.
  set (Q := bind D (pcd_batch k n)).
  assert (HmQ : mass Q = 1).
  { unfold Q, mass. rewrite E_bind. rewrite (E_ext_in D _ (fun _ => 1)); [exact HmD |]. intros l w Hl. apply (pcd_prob S k n Hk 0 l). apply (HD l w Hl). }
  assert (HQ : forall l w, In (l, w) Q -> length l = B /\ forall x, In x l -> In x S).
  { intros l w Hl. unfold Q, bind in Hl. apply in_flat_map in Hl. destruct Hl as ([z u] & Hz & Hl). apply in_map_iff in Hl. destruct Hl as ([y v] & Heq & Hy). cbn [fst snd] in *.
    injection Heq as -> _. destruct (HD z u Hz) as [H1 H2]. destruct (pcd_support S k n Hk 0 z l v H2 Hy) as [H3 H4]. split; [lia | exact H4]. }
  set (J := bind P (fun pos => dmap (fun neg => (pos, neg)) Q)).
  replace (E P (fun pos => E Q (G pos))) with (E J (fun b => G (fst b) (snd b))) by (unfold J; rewrite E_bind; apply E_ext; intros pos; rewrite E_dmap; reflexivity).
  assert (HJ : forall b w, In (b, w) J -> length (fst b) = B /\ length (snd b) = B /\ forall x, In x (fst b) \/ In x (snd b) -> In x S).
  { intros b w Hb. unfold J, bind in Hb. apply in_flat_map in Hb. destruct Hb as ([pos u] & Hpos & Hb). apply in_map_iff in Hb. destruct Hb as ([pr v] & Heq & Hpr). cbn [fst snd] in *.
    injection Heq as -> _. unfold dmap in Hpr. apply in_map_iff in Hpr. destruct Hpr as ([neg v'] & Heq & Hneg). cbn [fst snd] in Heq. injection Heq as <- _. cbn [fst snd].
    destruct (HP pos u Hpos) as [H1 H2]. destruct (HQ neg v' Hneg) as [H3 H4]. split; [exact H1 | split; [exact H3 | intros x [Hx | Hx]; auto]]. }
  apply (gradient_unbiased S f f' data t J (fun b => G (fst b) (snd b)) B B a0); try assumption.
  - intros i Hi. unfold J. rewrite E_bind, <- (HPm i f' Hi). apply E_ext. intros pos. rewrite E_dmap. cbn [fst]. rewrite E_const, HmQ. ring.
  - intros i Hi. unfold J. rewrite E_bind. rewrite (E_ext P _ (fun _ => mean S (fun x => exp (f t x)) f')).
    + rewrite E_const, HmP. ring.
    + intros pos. rewrite E_dmap. cbn [snd]. apply (pcd_stationary S _ f' k a0 D n i B); [exact Hk | exact Hinv | exact HD | exact Hi | intros h; apply HDm; exact Hi].
  - intros b w Hb. destruct (HJ b w Hb) as (H1 & H2 & H3). apply HG; assumption.
Qed.

(** ** One visible and one hidden unit, weight ln 2: the chain contracts by 1/36 a step and never arrives. *)
Lemma sigmoid_0 : sigmoid 0 = 1 / 2.
Proof. unfold sigmoid. rewrite exp_0. field. Qed.
Lemma sigmoid_ln2 : sigmoid (ln 2) = 2 / 3.
Proof. unfold sigmoid. rewrite exp_ln by lra. field. Qed.

Definition k1 := rbm_block_step 1 1 (fun _ _ => ln 2) (fun _ => 0) (fun _ => 0).

Lemma k1_step b : (b < 2)%nat -> E (k1 [b]) (fun v => at_ v 0) = 3 / 5 + 1 / 36 * (INR b - 3 / 5).
Proof.
  intros Hb. unfold k1, rbm_block_step, step_h, step_v, bern_vec, pre_h, pre_v. cbn [seq map rsum indep]. unfold at_.
  rewrite !E_bind, !E_dmap. unfold bernoulli. cbn [E rsum fst snd nth map dmap]. unfold E. cbn.
  assert (H0 : forall z, z = 0 -> sigmoid z = 1 / 2) by (intros z ->; apply sigmoid_0). assert (H1 : forall z, z = ln 2 -> sigmoid z = 2 / 3) by (intros z ->; apply sigmoid_ln2).
  rewrite (H0 (0 * ln 2 + 0 + 0)), (H1 (1 * ln 2 + 0 + 0)) by ring.
  destruct b as [| [| b]]; [| | lia]; cbn; [rewrite (H0 (0 * ln 2 + 0 + 0)) by ring | rewrite (H1 (1 * ln 2 + 0 + 0)) by ring]; field.
Qed.

Lemma k1_run n : forall t b, (b < 2)%nat -> E (run_seq (fun _ => k1) n t [b]) (fun v => at_ v 0) = 3 / 5 + (1 / 36) ^ n * (INR b - 3 / 5).
Proof.
  induction n as [| n IH]; intros t b Hb; cbn [run_seq pow].
  - rewrite E_ret. unfold at_. cbn [nth]. ring.
  - rewrite E_bind. rewrite (E_ext_in _ _ (fun z => (3 / 5 - (1 / 36) ^ n * (3 / 5)) + (1 / 36) ^ n * at_ z 0)).
    + rewrite E_plus, E_const, E_scal, k1_step by exact Hb.
      assert (Hs : In [b] (states 1 2)) by (apply in_states; split; [reflexivity | constructor; [exact Hb | constructor]]).
      rewrite (proj2 (proj1 (rbm_block_proper 1 1 (fun _ _ => ln 2) (fun _ => 0) (fun _ => 0) [b] Hs)) : mass (k1 [b]) = 1). ring.
    + intros z w Hz. assert (Hs : In [b] (states 1 2)) by (apply in_states; split; [reflexivity | constructor; [exact Hb | constructor]]).
      pose proof (proj2 (rbm_block_proper 1 1 (fun _ _ => ln 2) (fun _ => 0) (fun _ => 0) [b] Hs) z w Hz) as Hz'. apply in_states in Hz'. destruct Hz' as [H1 H2].
      destruct z as [| c [| ? ?]]; try discriminate. rewrite IH by (apply Forall_inv in H2; exact H2). unfold at_. cbn [nth]. ring.
Qed.

Lemma converges_pi {A} (S : list A) (pi pi' : A -> R) k : (forall x, pi x = pi' x) -> converges S pi k -> converges S pi' k.
Proof.
  intros H Hc eps He. destruct (Hc eps He) as [N HN]. exists N. intros n x f Hn Hx Hf. specialize (HN n x f Hn Hx Hf).
  replace (mean S pi' f) with (mean S pi f); [exact HN |]. unfold mean. rewrite (rsum_ext S pi pi') by auto. f_equal. apply rsum_ext; intros; rewrite H; reflexivity.
Qed.

Lemma rbm_line_0 nv nh w dw bv dbv bh dbh v : rbm_line nv nh w dw bv dbv bh dbh 0 v = rbm_call nv nh w bv bh v.
Proof.
  unfold rbm_line, rbm_call, pre_h. f_equal.
  - apply rsum_ext. intros j _. f_equal. f_equal; [apply rsum_ext; intros; ring | ring].
  - apply rsum_ext. intros; ring.
Qed.

Lemma rbm_block_invariant_line nv nh w dw bv dbv bh dbh : invariant (states nv 2) (fun v => exp (rbm_line nv nh w dw bv dbv bh dbh 0 v)) (rbm_block_step nv nh w bv bh).
Proof.
  intros h. pose proof (rbm_block_invariant nv nh w bv bh h) as H. cbv beta in H.
  transitivity (rsum (states nv 2) (fun x => exp (rbm_call nv nh w bv bh x) * E (rbm_block_step nv nh w bv bh x) h)); [apply rsum_ext; intros; rewrite rbm_line_0; reflexivity |].
  rewrite H. apply rsum_ext. intros; rewrite rbm_line_0; reflexivity.
Qed.

Theorem rbm_pcd_limit nv nh w dw bv dbv bh dbh (data : dist (list nat)) : mass data = 1 -> (forall x q, In (x, q) data -> In x (states nv 2)) ->
  forall eps, 0 < eps -> exists N, forall n B xs (P : dist (list (list nat))) G g, (N <= n)%nat -> (0 < B)%nat -> length xs = B -> (forall x, In x xs -> In x (states nv 2)) ->
  mass P = 1 -> (forall l q, In (l, q) P -> length l = B /\ forall x, In x l -> In x (states nv 2)) ->
  (forall i h, (i < B)%nat -> E P (fun l => h (nth i l [])) = E data h) ->
  (forall pos neg, length pos = B -> length neg = B -> (forall x, In x pos \/ In x neg -> In x (states nv 2)) ->
     loss_grad (fun s => pcd_loss (rbm_line nv nh w dw bv dbv bh dbh s) pos neg) 0 (G pos neg)) ->
  derivable_pt_lim (neg_log_lik (states nv 2) (rbm_line nv nh w dw bv dbv bh dbh) data) 0 g ->
  Rabs (E P (fun pos => E (pcd_batch (rbm_block_step nv nh w bv bh) n xs) (G pos)) - g) <= eps.
Proof.
  intros Hm Hsup eps Heps.
  destruct (pcd_gradient_limit (states nv 2) (rbm_line nv nh w dw bv dbv bh dbh) (fun v => rsum (seq 0 nh) (fun j => sigmoid (pre_h nv w bh v j) * (rsum (seq 0 nv) (fun i => at_ v i * dw i j) + dbh j)) + rsum (seq 0 nv) (fun i => at_ v i * dbv i)) data 0 (rbm_block_step nv nh w bv bh) [] (states_ne nv) Hm Hsup
    (fun x _ => rbm_line_derivative nv nh w dw bv dbv bh dbh x) (rbm_block_proper nv nh w bv bh)
    (converges_pi _ _ _ _ (fun x => f_equal exp (eq_sym (rbm_line_0 nv nh w dw bv dbv bh dbh x))) (rbm_block_converges nv nh w bv bh)) eps Heps) as [N HN].
  exists N. intros n B xs P G g Hn HB Hl Hxs HmP HP Hmarg HG Hg. apply (HN n B xs P G g); try assumption.
  intros i Hi. exact (Hmarg i _ Hi).
Qed.

(** Witness for the refutation: the derivative of the log-likelihood in the direction of the visible bias. *)
Definition line1 := rbm_line 1 1 (fun _ _ => ln 2) (fun _ _ => 0) (fun _ => 0) (fun _ => 1) (fun _ => 0) (fun _ => 0).

Lemma line1_deriv v : derivable_pt_lim (fun s => line1 s v) 0 (at_ v 0).
Proof.
  pose proof (rbm_line_derivative 1 1 (fun _ _ => ln 2) (fun _ _ => 0) (fun _ => 0) (fun _ => 1) (fun _ => 0) (fun _ => 0) v) as H. cbn [seq rsum] in H.
  match type of H with derivable_pt_lim _ _ ?l => replace l with (at_ v 0) in H by ring end. exact H.
Qed.

Lemma line1_model : mean (states 1 2) (fun x => exp (line1 0 x)) (fun v => at_ v 0) = 3 / 5.
Proof.
  assert (H : forall b, exp (line1 0 [b]) = 1 + exp (INR b * ln 2)).
  { intros b. unfold line1. rewrite rbm_line_0. unfold rbm_call, pre_h, at_. cbn [seq rsum nth]. rewrite !Rmult_0_r, !Rplus_0_r. apply exp_softplus. }
  unfold mean. change (states 1 2) with [[0%nat]; [1%nat]]. cbn [rsum]. rewrite !H. unfold at_. cbn [nth INR]. rewrite Rmult_0_l, Rmult_1_l, exp_0, exp_ln by lra. field.
Qed.

Theorem pcd_biased n : exists (data : dist (list nat)) xs G g, mass data = 1 /\ (forall x q, In (x, q) data -> In x (states 1 2)) /\
  (forall x, In x xs -> In x (states 1 2)) /\ length xs = 1%nat /\
  (forall pos neg, length pos = 1%nat -> length neg = 1%nat -> loss_grad (fun s => pcd_loss (line1 s) pos neg) 0 (G pos neg)) /\
  derivable_pt_lim (neg_log_lik (states 1 2) line1 data) 0 g /\
  E (dmap (fun x => [x]) data) (fun pos => E (pcd_batch k1 n xs) (G pos)) = g - 3 / 5 * (1 / 36) ^ n.
Proof.
  set (S := states 1 2). assert (H0 : In [0%nat] S) by (left; reflexivity).
  exists (ret [0%nat]), [[0%nat]], (fun pos neg => avg (map (fun v => at_ v 0) neg) - avg (map (fun v => at_ v 0) pos)), (3 / 5 - 0).
  assert (Hsup : forall x q, In (x, q) (ret [0%nat]) -> In x S) by (intros x q [Hx | []]; injection Hx as <- _; exact H0).
  assert (Hxs : forall x, In x [[0%nat]] -> In x S) by (intros x [<- | []]; exact H0).
  split; [apply is_prob_ret | split; [exact Hsup | split; [exact Hxs |]]]. split; [reflexivity | split; [| split]].
  - intros pos neg Hp Hn. apply (loss_gradient line1 (fun v => at_ v 0) 0 pos neg); [intros x _; apply line1_deriv | rewrite Hp, Hn; split; reflexivity].
  - pose proof (lik_gradient S line1 (fun v => at_ v 0) (ret [0%nat]) 0 ltac:(discriminate) (proj2 (is_prob_ret _)) Hsup (fun x _ => line1_deriv x)) as H.
    unfold S in H at 2. rewrite line1_model, E_ret in H. exact H.
  - rewrite E_dmap, E_ret.
    assert (Hk : proper S k1) by apply rbm_block_proper.
    rewrite (E_ext_in _ _ (fun neg => at_ (nth 0 neg []) 0)).
    + unfold pcd_batch. rewrite (pcd_marginal S k1 [] 0 (fun v => at_ v 0) n Hk 0 [[0%nat]] Hxs ltac:(cbn; lia)). cbn [nth]. rewrite k1_run by lia. cbn [INR]. lra.
    + intros neg q Hneg. destruct (pcd_support S k1 n Hk 0 [[0%nat]] neg q Hxs Hneg) as [Hl _]. destruct neg as [| v [| ? ?]]; try discriminate.
      unfold avg, at_. cbn [map rsum length nth INR]. field.
Qed.
