(** Without adaptation a whole annealing run is a number of independent identical chains, whatever the number of devices. *)
From Coq Require Import String Reals List Arith ZArith Lra Lia.
From Verif.Base Require Import RSum Cube Dist XFloat MH.
From Verif.Spec Require Import Chain SamplerRun AisRunSpec.
From Verif.Model Require Import MathUtil FullRun Experiment GraphRun AisRun.
From Verif.Proof Require Import ChainProof LangevinProof LangevinAdapt BernEvalProof AdaptiveRunProof MHKernel CoOptProof FullRunProof FullRunInvar GuardRun
  PaddingProof ExperimentProof AisProduct GraphProof.
Import ListNotations.
Local Open Scope R_scope.

(** The log-weights of one chain after each of [n] steps. *)
Fixpoint path (f : nat -> list nat -> R) (K : nat -> list nat -> dist (list nat)) (n t : nat) (p : list nat * R) : dist (list R) :=
  match n with
  | O => ret []
  | S n' => let w := snd p + f (S t) (fst p) - f t (fst p) in bind (K (S t) (fst p)) (fun y => dmap (cons w) (path f K n' (S t) (y, w)))
  end.
Fixpoint columns (n : nat) (rows : list (list R)) : list R :=
  match n with O => [] | S n' => logz (map (hd 0) rows) :: columns n' (map (@tl R) rows) end.

Lemma nth_columns : forall n i rows, (i < n)%nat -> nth i (columns n rows) 0 = logz (map (fun r => nth i r 0) rows).
Proof.
  induction n as [|n IH]; intros i rows Hi; [lia|]. destruct i as [|i]; cbn [columns nth].
  - f_equal. apply map_ext. intros r. destruct r; reflexivity.
  - rewrite IH by lia. rewrite map_map. f_equal. apply map_ext. intros r. destruct r; [destruct i; reflexivity|reflexivity].
Qed.
Lemma columns_length n : forall rows, length (columns n rows) = n.
Proof. induction n as [|n IH]; intros rows; [reflexivity|]. cbn. rewrite IH. reflexivity. Qed.

Section Runs.
  Variables (g dg : R) (T : nat -> target) (k : sampler) (d : nat).
  Hypotheses (Hdim : forall t, t_dim (T t) = d) (HC : forall t, t_C (T t) = 2%nat) (Hd : (0 < d)%nat).
  Hypotheses (Hu : forall t, usable (T t) k) (Hf : forall t, fixed_rule (T t) k).
  Let f t := t_fw (T t).
  Let S2 := states d 2.

  Lemma next_same t t' s : next_state (T t) k s = next_state (T t') k s.
  Proof. unfold next_state. rewrite !Hdim, !HC. reflexivity. Qed.
  Fixpoint state_seq (t : nat) : sstate := match t with O => init_state k | S t' => next_state (T 0) k (state_seq t') end.
  Lemma state_seq_at t : state_at d 2 k t (state_seq t).
  Proof.
    induction t as [|t IH]; cbn [state_seq].
    - pose proof (init_at (T 0) k) as H. rewrite Hdim, HC in H. apply H; auto.
    - pose proof (next_at (T 0) k t (state_seq t)) as H. rewrite Hdim, HC in H. apply H; auto.
  Qed.
  (** Step [t] is made in the state after [t - 1] steps. *)
  Definition kern (t : nat) : list nat -> dist (list nat) := one_step g dg (T t) k (state_seq (t - 1)).
  Lemma kern_proper t : proper S2 (kern t).
  Proof.
    pose proof (one_step_proper g dg (T t) k (t - 1) (state_seq (t - 1))) as H. rewrite Hdim, HC in H.
    apply H; auto. apply state_seq_at.
  Qed.
  Lemma kern_upto t : 0 <= g -> 0 <= dg -> invariant_upto (log_error (T t) k dg + 2 * g) S2 (fun x => exp (f t x)) (kern t).
  Proof.
    intros Hg Hdg. pose proof (one_step_upto g dg (T t) k (t - 1) (state_seq (t - 1))) as H. rewrite Hdim, HC in H.
    apply H; auto. apply state_seq_at.
  Qed.

  (** ** One step of all devices *)
  Definition dev_ok (t : nat) (o : dev) : Prop :=
    snd (fst o) = state_seq t /\ (forall x, In x (fst (fst o)) -> In x S2) /\ length (snd o) = length (fst (fst o)).
  Definition all_chains (ds : list dev) : list (list nat * R) := concat (map (fun o => combine (fst (fst o)) (snd o)) ds).

  Lemma dev_law t o F : dev_ok t o ->
    E (dev_step g dg (T t) (T (S t)) k o) F = E (indep (map (kern (S t)) (fst (fst o)))) (fun ys => F ((ys, state_seq (S t)), dev_weights (T t) (T (S t)) o)).
  Proof.
    destruct o as [[xs s] ws]. intros (Hs & Hx & Hl). cbn [fst snd] in *. subst s. unfold dev_step. rewrite E_dmap. cbn [fst snd].
    pose proof (step_product_state g dg (T (S t)) k t (state_seq t)) as H. rewrite Hdim, HC in H.
    rewrite H; auto; [|apply state_seq_at]. unfold kern. rewrite Nat.sub_succ, Nat.sub_0_r. apply E_ext. intros ys. do 3 f_equal. cbn [state_seq]. apply next_same.
  Qed.

  Lemma dev_weights_length t o : dev_ok t o -> length (dev_weights (T t) (T (S t)) o) = length (fst (fst o)).
  Proof. intros (_ & _ & Hl). unfold dev_weights. rewrite map_length, combine_length. lia. Qed.

  Lemma combine_map_l {A B C} (h : A -> C) : forall (l : list A) (m : list B), combine (map h l) m = map (fun p => (h (fst p), snd p)) (combine l m).
  Proof. induction l as [|a l IH]; intros [|b m]; try reflexivity. cbn. f_equal. apply IH. Qed.

  Definition new_w (t : nat) (p : list nat * R) : R := snd p + f (S t) (fst p) - f t (fst p).

  (** The chains after the step: own sample moved by [kern], own weight updated. *)
  Lemma devs_law t : forall ds F, (forall o, In o ds -> dev_ok t o) ->
    E (indep (map (dev_step g dg (T t) (T (S t)) k) ds)) F
    = E (indep (map (fun o => dmap (fun ys => ((ys, state_seq (S t)), dev_weights (T t) (T (S t)) o)) (indep (map (kern (S t)) (fst (fst o))))) ds)) F.
  Proof.
    intros ds F H. apply E_indep_ext. intros o Ho h. rewrite (dev_law t o h (H o Ho)). rewrite E_dmap. reflexivity.
  Qed.

  Lemma new_ok t ds ds' w : (forall o, In o ds -> dev_ok t o) ->
    In (ds', w) (indep (map (fun o => dmap (fun ys => ((ys, state_seq (S t)), dev_weights (T t) (T (S t)) o)) (indep (map (kern (S t)) (fst (fst o))))) ds)) ->
    forall o, In o ds' -> dev_ok (S t) o.
  Proof.
    intros H Hin. apply in_indep_each in Hin. remember (map _ ds) as L eqn:EL. revert ds H EL. induction Hin as [|o dd ds' L Ho Hr IH]; intros ds H EL; [intros o []|].
    destruct ds as [|o0 ds]; [discriminate|]. cbn [map] in EL. injection EL as E1 E2. intros o' [<-|Hin'].
    - subst dd. destruct Ho as [v Hv]. apply in_dmap in Hv. destruct Hv as (ys & Hy & ->).
      pose proof (H o0 (or_introl eq_refl)) as H0. split; [reflexivity|]. cbn [fst snd]. split.
      + intros x Hx. apply in_indep_each in Hy. destruct H0 as (_ & Hx0 & _).
        remember (map (kern (S t)) (fst (fst o0))) as M eqn:EM. revert EM Hx0. generalize (fst (fst o0)). clear - Hy Hx Hdim HC Hd Hu Hf.
        induction Hy as [|y dd ys M Hy Hr IH]; intros l EM Hx0; [destruct Hx|]. destruct l as [|x0 l]; [discriminate|]. cbn [map] in EM. injection EM as E1 E2.
        destruct Hx as [->|Hx]; [|apply (IH Hx l E2); intros; apply Hx0; right; auto]. subst dd. destruct Hy as [v Hv].
        apply (proj2 (kern_proper (S t) x0 (Hx0 x0 (or_introl eq_refl))) x v Hv).
      + rewrite dev_weights_length by exact H0. pose proof (in_indep_len _ _ _ Hy) as Hl. rewrite map_length in Hl. lia.
    - apply (IH ds); auto. intros o2 Ho2. apply H. right. exact Ho2.
  Qed.

  Lemma E_indep_concat {X A} (K : X -> dist A) : forall (ls : list (list X)) F,
    E (indep (map (fun l => indep (map K l)) ls)) (fun ys => F (concat ys)) = E (indep (map K (concat ls))) F.
  Proof.
    induction ls as [|l ls IH]; intros F; [cbn [map concat indep]; rewrite !E_ret; reflexivity|]. cbn [map concat]. rewrite E_indep_cons, map_app, E_indep_app.
    apply E_ext. intros a. cbn [concat]. apply (IH (fun b => F (a ++ b))).
  Qed.

  Lemma E_indep_dmap {X A B} (h : X -> A -> B) (P : X -> dist A) : forall xs F,
    E (indep (map (fun x => dmap (h x) (P x)) xs)) F = E (indep (map P xs)) (fun l => F (map (fun p => h (snd p) (fst p)) (combine l xs))).
  Proof.
    induction xs as [|x xs IH]; intros F; [cbn [map indep]; rewrite !E_ret; reflexivity|]. cbn [map]. rewrite !E_indep_cons, E_dmap.
    apply E_ext. intros a. rewrite IH. apply E_ext. intros l. reflexivity.
  Qed.

  Lemma concat_pairs t : forall (ds : list dev) (yss : list (list (list nat))), (forall o, In o ds -> dev_ok t o) ->
    Forall2 (fun ys o => length ys = length (fst (fst o))) yss ds ->
    all_chains (map (fun p => ((fst p, state_seq (S t)), dev_weights (T t) (T (S t)) (snd p))) (combine yss ds))
    = combine (concat yss) (map (new_w t) (all_chains ds)) /\ concat (map snd (map (fun p => ((fst p, state_seq (S t)), dev_weights (T t) (T (S t)) (snd p))) (combine yss ds))) = map (new_w t) (all_chains ds).
  Proof.
    intros ds yss H HF. induction HF as [|ys o yss ds Hl Hr IH]; [split; reflexivity|]. destruct (IH ltac:(intros; apply H; right; auto)) as [I1 I2].
    cbn [combine map]. unfold all_chains in *. cbn [map concat fst snd]. rewrite I1, I2, map_app. split; [|reflexivity].
    unfold dev_weights at 1. fold (new_w t). rewrite combine_app; [reflexivity|].
    rewrite map_length, combine_length. destruct (H o (or_introl eq_refl)) as (_ & _ & Hw). lia.
  Qed.

  (** ** The whole run *)
  Lemma path_prob n : forall t p, In (fst p) S2 -> is_prob (path f kern n t p).
  Proof.
    induction n as [|n IH]; intros t p Hp; cbn [path]; [apply is_prob_ret|]. destruct (kern_proper (S t) (fst p) Hp) as [H1 H2].
    apply is_prob_bind; [exact H1|]. intros y w Hy. apply is_prob_dmap, IH. exact (H2 y w Hy).
  Qed.
  Lemma chains_in t ds : (forall o, In o ds -> dev_ok t o) -> forall p, In p (all_chains ds) -> In (fst p) S2.
  Proof.
    intros H p Hp. unfold all_chains in Hp. apply in_concat in Hp. destruct Hp as (l & Hl & Hp). apply in_map_iff in Hl. destruct Hl as (o & <- & Ho).
    destruct p as [x w]. apply in_combine_l in Hp. apply (proj1 (proj2 (H o Ho))). exact Hp.
  Qed.
  Lemma chains_fst t : forall ds, (forall o, In o ds -> dev_ok t o) -> concat (map (fun o : dev => fst (fst o)) ds) = map fst (all_chains ds).
  Proof.
    induction ds as [|o ds IH]; intros H; [reflexivity|]. unfold all_chains. cbn [map concat]. rewrite map_app. fold (all_chains ds). rewrite <- IH by (intros; apply H; right; auto).
    f_equal. destruct (H o (or_introl eq_refl)) as (_ & _ & Hl). destruct o as [[xs s] ws]. cbn [fst snd] in *. clear - Hl. revert ws Hl.
    induction xs as [|x xs IH]; intros [|w ws] Hl; try discriminate; [reflexivity|]. cbn. f_equal. apply IH. cbn in Hl. lia.
  Qed.

  Theorem run_chains n : forall t ds F, (forall o, In o ds -> dev_ok t o) ->
    E (ais_values g dg T k n t ds) F = E (indep (map (path f kern n t) (all_chains ds))) (fun rows => F (columns n rows)).
  Proof.
    induction n as [|n IH]; intros t ds F H.
    - cbn [ais_values columns]. rewrite E_ret, E_const.
      assert (Hp : is_prob (indep (map (path f kern 0 t) (all_chains ds)))).
      { apply is_prob_indep. intros dd Hdd. apply in_map_iff in Hdd. destruct Hdd as (p & <- & Hp). apply is_prob_ret. }
      destruct Hp as [_ Hm]. rewrite Hm. ring.
    - cbn [ais_values]. rewrite E_bind, (devs_law t) by exact H.
      pose (G := fun ys : list (list nat) => E (indep (map (path f kern n (S t)) (combine ys (map (new_w t) (all_chains ds))))) (fun rows => F (logz (map (new_w t) (all_chains ds)) :: columns n rows))).
      transitivity (E (indep (map (fun l => indep (map (kern (S t)) l)) (map (fun o : dev => fst (fst o)) ds))) (fun yss => G (concat yss))).
      + rewrite (E_ext_in _ _ (fun ds' => E (indep (map (path f kern n (S t)) (all_chains ds'))) (fun rows => F (logz (concat (map snd ds')) :: columns n rows)))).
        2: { intros ds' w Hin. rewrite E_dmap. rewrite (IH (S t) ds' (fun zs => F (logz (concat (map snd ds')) :: zs))); [reflexivity|]. exact (new_ok t ds ds' w H Hin). }
        rewrite (E_indep_dmap (fun o ys => ((ys, state_seq (S t)), dev_weights (T t) (T (S t)) o)) (fun o : dev => indep (map (kern (S t)) (fst (fst o))))).
        rewrite map_map. apply E_ext_in. intros yss w Hin.
        destruct (concat_pairs t ds yss H) as [C1 C2].
        { apply in_indep_each in Hin. clear - Hin. revert Hin. generalize ds. clear ds. induction yss as [|ys yss IHy]; intros ds Hin.
          - inversion Hin as [E1 E2|]. destruct ds; [constructor|discriminate].
          - inversion Hin as [|a dd l L Ha Hl E1 E2]; subst. destruct ds as [|o ds]; [discriminate|]. cbn [map] in E2. injection E2 as -> E2. constructor.
            + destruct Ha as [v Hv]. pose proof (in_indep_len _ _ _ Hv) as Hlen. rewrite map_length in Hlen. exact Hlen.
            + apply IHy. rewrite <- E2. exact Hl. }
        rewrite C1, C2. reflexivity.
      + rewrite (E_indep_concat (kern (S t))), (chains_fst t) by exact H. set (ps := all_chains ds) in *.
        cbn [path]. rewrite (indep_bind (fun p : list nat * R => kern (S t) (fst p)) (fun p y => dmap (cons (new_w t p)) (path f kern n (S t) (y, new_w t p)))).
        rewrite map_map. apply E_ext_in. intros ys w Hin. pose proof (in_indep_len _ _ _ Hin) as Hlen. rewrite map_length in Hlen. unfold G. fold ps.
        rewrite (E_indep_dmap (fun ap row => new_w t (snd ap) :: row) (fun ap : list nat * (list nat * R) => path f kern n (S t) (fst ap, new_w t (snd ap)))).
        assert (Hc : combine ys (map (new_w t) ps) = map (fun ap => (fst ap, new_w t (snd ap))) (combine ys ps)).
        { clearbody ps. clear. revert ps. induction ys as [|y ys IHy]; intros [|p ps]; try reflexivity. cbn. f_equal. apply IHy. }
        rewrite Hc, map_map. apply E_ext_in. intros rows v Hrows. pose proof (in_indep_len _ _ _ Hrows) as Hlr. rewrite map_length, combine_length in Hlr.
        cbn [columns]. f_equal. assert (Hm : forall (rs : list (list R)) (l : list (list nat * (list nat * R))), length rs = length l ->
          map (hd 0) (map (fun p => new_w t (snd (snd p)) :: fst p) (combine rs l)) = map (fun ap => new_w t (snd ap)) l /\ map (@tl R) (map (fun p => new_w t (snd (snd p)) :: fst p) (combine rs l)) = rs).
        { induction rs as [|r rs IHr]; intros [|a l] Hl; try discriminate; [split; reflexivity|]. cbn [combine map hd tl fst snd]. destruct (IHr l) as [I1 I2]; [cbn in Hl; lia|]. rewrite I1, I2. auto. }
        destruct (Hm rows (combine ys ps)) as [M1 M2]; [rewrite combine_length; lia|]. rewrite M1, M2. f_equal. f_equal.
        rewrite <- (map_map snd (new_w t)), map_snd_combine by lia. reflexivity.
  Qed.
End Runs.
