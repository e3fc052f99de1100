(** C81: a combinatorial-optimisation run and the optimum. *)
From Coq Require Import Reals List Lra Lia Arith.
From Verif.Base Require Import RSum Cube Dist.
From Verif.Spec Require Import Chain Ergodic.
From Verif.Model Require Import MathUtil Gibbs RandomWalk LocallyBalanced GWG PathAux Experiment Annealing.
From Verif.Proof Require Import MathUtilProof ExperimentProof ErgodicSamplers AnnealProof.
Import ListNotations.
Local Open Scope R_scope.

(** ** C81 *)
(** Whatever the samplers do, as long as they stay in the state space, the reported ratio is never above the optimum. *)
Theorem C81_never_above : forall A (S : list A) obj ref zeros L opt (k : nat -> A -> dist A) n xs,
  (forall t, proper S (k t)) -> 0 < ref -> - IZR 1000000000 < opt / ref -> (forall x, In x S -> obj x <= opt) ->
  xs <> [] -> (forall x, In x xs -> In x S) ->
  E (co_path (fun s => batch_step (k s)) n 1 xs) (fun p => if Rlt_dec (opt / ref) (co_report obj ref zeros L p) then 1 else 0) = 0.
Proof. intros A S. exact (never_above S). Qed.
Print Assumptions C81_never_above.

(** Gibbs sampler, every temperature schedule that stays above Tmin, logging every L steps. *)
Theorem C81_gibbs : forall obj T Tmin D opt ref zeros d C L n xs, (0 < d)%nat -> (0 < C)%nat -> (0 < L)%nat ->
  0 < ref -> - IZR 1000000000 < opt / ref -> 0 < Tmin -> (forall s, (1 <= s)%nat -> Tmin <= T s) ->
  (forall x y, In x (states d C) -> In y (states d C) -> Rabs (obj x - obj y) <= D) ->
  (forall x, In x (states d C) -> obj x <= opt) -> (exists x, In x (states d C) /\ obj x = opt) ->
  xs <> [] -> (forall x, In x xs -> In x (states d C)) ->
  1 - ((1 - (exp (- (D / Tmin)) / INR C) ^ d) ^ (n / (d * L))) ^ length xs <=
  E (co_path (fun s => batch_step (gibbs_anneal obj T d C s)) n 1 xs) (fun p => if Req_EM_T (co_report obj ref zeros L p) (opt / ref) then 1 else 0).
Proof. exact gibbs_finds. Qed.
Print Assumptions C81_gibbs.

(** One run length serves all schedules above Tmin, so schedules stretched over the run are included. *)
Theorem C81_gibbs_limit : forall obj Tmin D opt ref zeros d C L, (0 < d)%nat -> (0 < C)%nat -> (0 < L)%nat ->
  0 < ref -> - IZR 1000000000 < opt / ref -> 0 < Tmin ->
  (forall x y, In x (states d C) -> In y (states d C) -> Rabs (obj x - obj y) <= D) ->
  (forall x, In x (states d C) -> obj x <= opt) -> (exists x, In x (states d C) /\ obj x = opt) ->
  forall eps, 0 < eps -> exists N, forall n T xs, (N <= n)%nat -> (forall s, (1 <= s)%nat -> Tmin <= T s) ->
  xs <> [] -> (forall x, In x xs -> In x (states d C)) ->
  1 - eps <= E (co_path (fun s => batch_step (gibbs_anneal obj T d C s)) n 1 xs) (fun p => if Req_EM_T (co_report obj ref zeros L p) (opt / ref) then 1 else 0).
Proof. exact gibbs_finds_limit. Qed.
Print Assumptions C81_gibbs_limit.

Theorem C81_gibbs_schedules : forall obj init final decay D opt ref zeros d C L, (0 < d)%nat -> (0 < C)%nat -> (0 < L)%nat ->
  0 < ref -> - IZR 1000000000 < opt / ref -> 0 < final <= init -> 0 < decay < 1 ->
  (forall x y, In x (states d C) -> In y (states d C) -> Rabs (obj x - obj y) <= D) ->
  (forall x, In x (states d C) -> obj x <= opt) -> (exists x, In x (states d C) /\ obj x = opt) ->
  forall eps, 0 < eps -> exists N, forall n T xs, (N <= n)%nat ->
  In T [constant_schedule init; linear_schedule init final n; exp_schedule init final decay n] ->
  xs <> [] -> (forall x, In x xs -> In x (states d C)) ->
  1 - eps <= E (co_path (fun s => batch_step (gibbs_anneal obj T d C s)) n 1 xs) (fun p => if Req_EM_T (co_report obj ref zeros L p) (opt / ref) then 1 else 0).
Proof.
  intros obj init final decay D opt ref zeros d C L Hd HC HL Hr Hlo Hf Hdec HD Hmax Hex eps Heps.
  destruct (gibbs_finds_limit obj final D opt ref zeros d C L Hd HC HL Hr Hlo ltac:(lra) HD Hmax Hex eps Heps) as [N HN].
  exists N. intros n T xs Hn HT. apply HN; [exact Hn |]. intros s _. destruct HT as [<- | [<- | [<- | []]]].
  - unfold constant_schedule. lra.
  - eapply Rle_trans; [| apply linear_range]. apply Rmin_glb; lra.
  - apply exp_range; lra.
Qed.
Print Assumptions C81_gibbs_schedules.
Example C81_gibbs_ex : let obj := fun x : list nat => INR (list_sum x) in
  exists N, forall n, (N <= n)%nat ->
  99 / 100 <= E (co_path (fun s => batch_step (gibbs_anneal obj (linear_schedule 5 1 n) 2 2 s)) n 1 [[0%nat; 0%nat]; [1%nat; 0%nat]])
                (fun p => if Req_EM_T (co_report obj 2 [0%nat; 0%nat] 3 p) (2 / 2) then 1 else 0).
Proof.
  intros obj.
  assert (Hin : forall x, In x (states 2 2) -> 0 <= obj x <= 2).
  { intros x Hx. simpl in Hx. unfold obj. repeat destruct Hx as [<- | Hx]; simpl; try lra. }
  destruct (C81_gibbs_schedules obj 5 1 (/ 2) 2 2 2 [0%nat; 0%nat] 2 2 3 ltac:(lia) ltac:(lia) ltac:(lia) ltac:(lra) ltac:(lra) ltac:(lra) ltac:(lra)) with (eps := / 100) as [N HN].
  - intros x y Hx Hy. specialize (Hin x Hx) as H1. specialize (Hin y Hy) as H2. apply Rabs_le. lra.
  - intros x Hx. apply Hin. exact Hx.
  - exists [1%nat; 1%nat]. split; [simpl; tauto | unfold obj; simpl; lra].
  - lra.
  - exists N. intros n Hn. replace (99 / 100) with (1 - / 100) by lra. apply HN; [exact Hn | simpl; tauto | discriminate |].
    intros x [<- | [<- | []]]; simpl; tauto.
Qed.

(** Random walk with a fixed radius and the code's acceptance guard, when the guard is below exp(-D/Tmin). *)
Theorem C81_random_walk : forall g obj T Tmin D opt ref zeros radius d C L n xs, (0 < d)%nat -> (2 <= C)%nat -> (0 < L)%nat ->
  0 < radius < INR d -> 0 <= g -> g < exp (- (D / Tmin)) ->
  0 < ref -> - IZR 1000000000 < opt / ref -> 0 < Tmin -> (forall s, (1 <= s)%nat -> Tmin <= T s) ->
  (forall x y, In x (states d C) -> In y (states d C) -> Rabs (obj x - obj y) <= D) ->
  (forall x, In x (states d C) -> obj x <= opt) -> (exists x, In x (states d C) /\ obj x = opt) ->
  xs <> [] -> (forall x, In x xs -> In x (states d C)) ->
  1 - ((1 - (Rmin (radius / INR d) (1 - radius / INR d) / INR (C - 1)) ^ d * (exp (- (D / Tmin)) - g)) ^ (n / L)) ^ length xs <=
  E (co_path (fun s => batch_step (rw_anneal g obj T radius d C s)) n 1 xs) (fun p => if Req_EM_T (co_report obj ref zeros L p) (opt / ref) then 1 else 0).
Proof. exact rw_finds. Qed.
Print Assumptions C81_random_walk.
Example C81_random_walk_ex : let obj := fun x : list nat => INR (list_sum x) in
  1 - ((1 - (Rmin (1 / INR 2) (1 - 1 / INR 2) / INR 1) ^ 2 * (exp (- (2 / 1)) - 0)) ^ (12 / 3)) ^ 1
  <= E (co_path (fun s => batch_step (rw_anneal 0 obj (constant_schedule 1) 1 2 2 s)) 12 1 [[0%nat; 0%nat]])
       (fun p => if Req_EM_T (co_report obj 2 [0%nat; 0%nat] 3 p) (2 / 2) then 1 else 0).
Proof.
  intros obj.
  assert (Hin : forall x, In x (states 2 2) -> 0 <= obj x <= 2).
  { intros x Hx. simpl in Hx. unfold obj. repeat destruct Hx as [<- | Hx]; simpl; try lra. }
  refine (C81_random_walk 0 obj (constant_schedule 1) 1 2 2 2 [0%nat; 0%nat] 1 2 2 3 12 [[0%nat; 0%nat]] _ _ _ _ _ _ _ _ _ _ _ _ _ _ _); try lia; try lra.
  - simpl. lra.
  - apply exp_pos.
  - intros. unfold constant_schedule. lra.
  - intros x y Hx Hy. specialize (Hin x Hx) as H1. specialize (Hin y Hy) as H2. apply Rabs_le. lra.
  - intros x Hx. apply Hin. exact Hx.
  - exists [1%nat; 1%nat]. split; [simpl; tauto | unfold obj; simpl; lra].
  - discriminate.
  - intros x [<- | []]. simpl. tauto.
Qed.

(** Any sampler whose run at a constant temperature converges to a positive target (C73), with a scan of period P. *)
Theorem C81_convergent : forall A (S : list A) (pi obj : A -> R) ref zeros L opt (k : nat -> A -> dist A) P,
  (forall t, proper S (k t)) -> (0 < L)%nat -> (0 < P)%nat -> (forall t, k (P + t)%nat = k t) ->
  converges S pi (fun t => k (Datatypes.S t)) -> (forall x, In x S -> 0 < pi x) ->
  0 < ref -> - IZR 1000000000 < opt / ref -> (forall x, In x S -> obj x <= opt) -> (exists x, In x S /\ obj x = opt) ->
  forall eps, 0 < eps -> exists N, forall n xs, (N <= n)%nat -> xs <> [] -> (forall x, In x xs -> In x S) ->
  1 - eps <= E (co_path (fun s => batch_step (k s)) n 1 xs) (fun p => if Req_EM_T (co_report obj ref zeros L p) (opt / ref) then 1 else 0).
Proof. intros A S. exact (convergent_finds S). Qed.
Print Assumptions C81_convergent.
Example C81_convergent_ex : let obj := fun x : list nat => INR (list_sum x) in
  exists N, forall n, (N <= n)%nat -> 99 / 100 <=
  E (co_path (fun s => batch_step (gwg_anneal 0 obj (constant_schedule 1) None 2 s)) n 1 [[0%nat; 0%nat]])
    (fun p => if Req_EM_T (co_report obj 2 [0%nat; 0%nat] 3 p) (2 / 2) then 1 else 0).
Proof.
  intros obj.
  assert (Hin : forall x, In x (states 2 2) -> 0 <= obj x <= 2).
  { intros x Hx. simpl in Hx. unfold obj. repeat destruct Hx as [<- | Hx]; simpl; try lra. }
  assert (Hc : forall s, constant_schedule 1 s = 1) by (intros s; unfold constant_schedule; ring).
  destruct (C81_convergent _ (states 2 2) (fun x => exp (tempered obj 1 x)) obj 2 [0%nat; 0%nat] 3 2 (gwg_anneal 0 obj (constant_schedule 1) None 2) 1) with (eps := / 100) as [N HN]; try lia; try lra.
  - intros t. apply gwg_proper. lia.
  - intros t. unfold gwg_anneal. rewrite !Hc. reflexivity.
  - eapply converges_ext; [intros t; unfold gwg_anneal; rewrite Hc; reflexivity |]. apply (gwg_multi_converges _ _ _ None 2 2); lia.
  - intros; apply exp_pos.
  - intros x Hx. apply Hin. exact Hx.
  - exists [1%nat; 1%nat]. split; [simpl; tauto | unfold obj; simpl; lra].
  - exists N. intros n Hn. replace (99 / 100) with (1 - / 100) by lra. apply HN; [exact Hn | discriminate |].
    intros x [<- | []]; simpl; tauto.
Qed.

(** At temperature T the target gives the non-optimal states at most |S| exp(-gap/T). *)
Theorem C81_cold_target : forall A (S : list A) (obj : A -> R) opt gap T, 0 < T -> (exists x, In x S /\ obj x = opt) ->
  (forall x, In x S -> obj x = opt \/ obj x <= opt - gap) ->
  mean S (fun x => exp (tempered obj T x)) (fun x => if Req_EM_T (obj x) opt then 0 else 1) <= INR (length S) * exp (- (gap / T)).
Proof. intros A S. exact (cold_target S). Qed.
Print Assumptions C81_cold_target.
Example C81_cold_target_ex : mean (states 1 3) (fun x => exp (tempered (fun x => INR (nth 0 x 0%nat)) (/ 5) x)) (fun x => if Req_EM_T (INR (nth 0 x 0%nat)) 2 then 0 else 1) <= 3 * exp (- 5).
Proof.
  pose proof (C81_cold_target _ (states 1 3) (fun x => INR (nth 0 x 0%nat)) 2 1 (/ 5)) as H.
  replace (INR (length (states 1 3))) with 3 in H by (simpl; lra). replace (- (1 / / 5)) with (- 5) in H by field.
  apply H; [lra | exists [2%nat]; split; simpl; [tauto | lra] |].
  intros x Hx. simpl in Hx. repeat destruct Hx as [<- | Hx]; simpl; try lra.
Qed.

(** The path-auxiliary sampler with an even number of flips never reports an optimum of the other parity, at any length. *)
Theorem C81_path_auxiliary_even : forall g obj T mask num_flips d ref zeros L opt n xs, (1 <= num_flips <= d)%nat -> Nat.Even num_flips ->
  0 < ref -> - IZR 1000000000 < opt / ref -> (forall x, In x (states d 2) -> obj x <= opt) ->
  xs <> [] -> (forall x y, In x xs -> In x (states d 2) /\ (In y (states d 2) -> obj y = opt -> Nat.even (list_sum x) <> Nat.even (list_sum y))) ->
  E (co_path (fun s => batch_step (pafs_anneal g obj T mask num_flips s)) n 1 xs) (fun p => if Req_EM_T (co_report obj ref zeros L p) (opt / ref) then 1 else 0) = 0.
Proof. exact pafs_never. Qed.
Print Assumptions C81_path_auxiliary_even.
Theorem C81_path_auxiliary_refuted : exists obj opt num_flips xs, (exists x, In x (states 3 2) /\ obj x = opt) /\ (forall x, In x xs -> In x (states 3 2)) /\
  forall T n, E (co_path (fun s => batch_step (pafs_anneal acc_guard obj T None num_flips s)) n 1 xs)
                (fun p => if Req_EM_T (co_report obj opt [0%nat; 0%nat; 0%nat] 1 p) (opt / opt) then 1 else 0) = 0.
Proof.
  exists (fun x => INR (list_sum x)), 3, 2%nat, [[0%nat; 0%nat; 0%nat]; [1%nat; 1%nat; 0%nat]]. split; [| split].
  - exists [1%nat; 1%nat; 1%nat]. split; [simpl; tauto | simpl; lra].
  - intros x [<- | [<- | []]]; simpl; tauto.
  - intros T n. apply C81_path_auxiliary_even with (d := 3%nat); [lia | exists 1%nat; reflexivity | lra | lra | | discriminate |].
    + intros x Hx. simpl in Hx. repeat destruct Hx as [<- | Hx]; simpl; try lra.
    + intros x y Hx. split; [destruct Hx as [<- | [<- | []]]; simpl; tauto |]. intros Hy Ho.
      assert (Hy1 : list_sum y = 3%nat) by (apply INR_eq; rewrite Ho; simpl; lra). rewrite Hy1. destruct Hx as [<- | [<- | []]]; discriminate.
Qed.
Print Assumptions C81_path_auxiliary_refuted.

(** GWG with one flip, the code's acceptance guard g, any schedule below Tmax: a state whose neighbours are all worse by at least
    delta is never left once d exp(-delta/Tmax) <= g. *)
Theorem C81_gwg_trapped : forall g obj T Tmax delta d ref zeros L opt n xs, (0 < d)%nat ->
  0 < ref -> - IZR 1000000000 < opt / ref -> (forall x, In x (states d 2) -> obj x <= opt) ->
  (forall s, (1 <= s)%nat -> 0 < T s <= Tmax) -> 0 <= delta -> INR d * exp (- (delta / Tmax)) <= g ->
  xs <> [] ->
  (forall x, In x xs -> In x (states d 2) /\ obj x <> opt /\ forall i, (i < d)%nat -> obj (neighbor x i) <= obj x - delta) ->
  E (co_path (fun s => batch_step (gwg_anneal g obj T None 1 s)) n 1 xs) (fun p => if Req_EM_T (co_report obj ref zeros L p) (opt / ref) then 1 else 0) = 0.
Proof. exact gwg_trapped. Qed.
Print Assumptions C81_gwg_trapped.
Theorem C81_gwg_refuted : exists obj opt T xs, 0 < T /\ (exists x, In x (states 2 2) /\ obj x = opt) /\ (forall x, In x xs -> In x (states 2 2)) /\
  forall n, E (co_path (fun s => batch_step (gwg_anneal acc_guard obj (constant_schedule T) None 1 s)) n 1 xs)
              (fun p => if Req_EM_T (co_report obj opt [0%nat; 0%nat] 1 p) (opt / opt) then 1 else 0) = 0.
Proof.
  exists (fun x => match x with [0%nat; 0%nat] => 1 | [1%nat; 1%nat] => 2 | _ => 0 end), 2, (/ 100), [[0%nat; 0%nat]]. split; [lra | split; [| split]].
  - exists [1%nat; 1%nat]. split; [simpl; tauto | reflexivity].
  - intros x [<- | []]; simpl; tauto.
  - intros n. apply C81_gwg_trapped with (Tmax := / 100) (delta := 1) (d := 2%nat); [lia | lra | lra | | | lra | | discriminate |].
    + intros x Hx. simpl in Hx. repeat destruct Hx as [<- | Hx]; try lra.
    + intros s _. unfold constant_schedule. lra.
    + replace (1 / / 100) with (INR 100) by (simpl; lra). apply exp_neg_tiny.
    + intros x [<- | []]. split; [simpl; tauto |]. split; [lra |]. intros [| [| i]] Hi; [cbn; lra | cbn; lra | lia].
Qed.
Print Assumptions C81_gwg_refuted.
