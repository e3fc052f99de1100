From Coq Require Import String List Bool ZArith Reals Lra Lia Arith.
From Verif.Base Require Import RSum Cube Dist.
From Verif.Spec Require Import Grid Latent InitField Chain LaunchSpec SamplerRun RunTargetSpec.
From Verif.Model Require Import Config Launch RunConfigs Start FullRun RunTarget.
From Verif.Proof Require Import LaunchProof LaunchShipped RunTargetProof RunTargetShipped.
Import ListNotations.
Local Open Scope string_scope.
Local Open Scope R_scope.

Lemma pairs_split h w x : (equal_pairs h w x + unequal_pairs h w x = length (pairs h w))%nat.
Proof.
  unfold equal_pairs, unequal_pairs. induction (pairs h w) as [|e l IH]; [reflexivity|]. cbn [filter length].
  destruct (Nat.eqb (x (fst (fst e)) (snd (fst e))) (x (fst (snd e)) (snd (snd e)))); cbn [negb length]; lia.
Qed.
Lemma unequal_zero h w x : (forall i j, x i j = 0%nat) -> unequal_pairs h w x = 0%nat.
Proof. intros H. unfold unequal_pairs. induction (pairs h w) as [|e l IH]; [reflexivity|]. cbn [filter]. rewrite !H. cbn [Nat.eqb negb]. exact IH. Qed.
Lemma first_pair h w : (0 < h)%nat -> (1 < w)%nat -> In ((0, 0), (0, 1))%nat (pairs h w).
Proof.
  intros Hh Hw. unfold pairs. apply in_or_app. right. unfold h_edges. apply filter_In. split; [|reflexivity].
  apply in_prod; apply in_prod; apply in_seq; lia.
Qed.
Lemma unequal_one h w x : (0 < h)%nat -> (1 < w)%nat -> x 0%nat 0%nat <> x 0%nat 1%nat -> (0 < unequal_pairs h w x)%nat.
Proof.
  intros Hh Hw H. unfold unequal_pairs. pose proof (first_pair h w Hh Hw) as P.
  assert (I : In ((0, 0), (0, 1))%nat (filter (fun e => negb (Nat.eqb (x (fst (fst e)) (snd (fst e))) (x (fst (snd e)) (snd (snd e))))) (pairs h w))).
  { apply filter_In. split; [exact P|]. cbn [fst snd]. apply negb_true_iff, Nat.eqb_neq, H. }
  destruct (filter _ _); [destruct I|cbn; lia].
Qed.
Lemma spins_differ u h w la : (0 < h)%nat -> (1 < w)%nat -> 0 < la -> exists x y, In x (states (h * w) 2) /\ In y (states (h * w) 2) /\ spins u h w la 0 0 x <> spins u h w la 0 0 y.
Proof.
  intros Hh Hw Hl. exists (repeat 0%nat (h * w)), (1%nat :: repeat 0%nat (h * w - 1)). split; [|split].
  - apply in_states. split; [apply repeat_length|]. apply Forall_forall. intros v Hv. apply repeat_spec in Hv. lia.
  - apply in_states. split; [cbn; rewrite repeat_length; nia|]. constructor; [lia|]. apply Forall_forall. intros v Hv. apply repeat_spec in Hv. lia.
  - unfold spins. set (x := repeat 0%nat (h * w)). set (y := 1%nat :: repeat 0%nat (h * w - 1)).
    assert (F : forall z, rsum (cells h w) (fun c => field u h w 0 0 (fst c) (snd c) 0%nat * (2 * INR (site w z (fst c) (snd c)) - 1)) = 0).
    { intros z. apply rsum_const0. intros c _. unfold field. destruct Rlt_dec; ring. }
    rewrite !F. intros E. apply exp_inv in E. apply (Rmult_eq_reg_l la) in E; [|lra] || idtac.
    pose proof (pairs_split h w (site w x)) as P1. pose proof (pairs_split h w (site w y)) as P2.
    assert (Z : unequal_pairs h w (site w x) = 0%nat).
    { apply unequal_zero. intros i j. unfold site, x. destruct (Nat.lt_ge_cases (i * w + j) (h * w)); [apply nth_repeat|apply nth_overflow; rewrite repeat_length; lia]. }
    assert (O : (0 < unequal_pairs h w (site w y))%nat).
    { apply unequal_one; try assumption. unfold site, y. cbn [Nat.mul Nat.add nth]. rewrite nth_repeat. discriminate. }
    rewrite Z in *. apply (f_equal INR) in P1, P2. rewrite plus_INR in P1, P2. apply lt_INR in O. cbn [INR] in O, P1, E. nra.
Qed.

(** ** Hidden chains *)
Lemma path_steps_fun tr (f : nat -> nat -> nat) k n : forall s,
  path_steps tr (map (f s) (seq 0 k)) (map (fun t => map (f t) (seq 0 k)) (seq (S s) n)) = rprod (seq s n) (fun t => rprod (seq 0 k) (fun i => tr (f t i) (f (S t) i))).
Proof.
  induction n as [|n IH]; intros s; [reflexivity|]. cbn [seq map path_steps]. rewrite IH. cbn [rprod]. f_equal.
  rewrite GraphProof.combine_map2, rprod_map. reflexivity.
Qed.
Lemma path_prob_fun p0 tr (f : nat -> nat -> nat) k n :
  path_prob p0 tr (map (fun t => map (f t) (seq 0 k)) (seq 0 (S n))) = rprod (seq 0 k) (fun i => p0 (f 0%nat i)) * rprod (seq 0 n) (fun t => rprod (seq 0 k) (fun i => tr (f t i) (f (S t) i))).
Proof. cbn [seq map path_prob]. rewrite path_steps_fun, rprod_map. reflexivity. Qed.
Lemma last_change p0 tr k n : tr 0%nat 0%nat <> 0 ->
  let mk v := fun t i => nth (t * S k + i) (repeat 0%nat (S (S n) * S k - 1) ++ [v])%list 0%nat in
  path_prob p0 tr (map (fun t => map (mk 1%nat t) (seq 0 (S k))) (seq 0 (S (S n)))) * tr 0%nat 0%nat
  = path_prob p0 tr (map (fun t => map (mk 0%nat t) (seq 0 (S k))) (seq 0 (S (S n)))) * tr 0%nat 1%nat.
Proof.
  intros Ht mk.
  assert (Z : forall v t i, (t * S k + i < S (S n) * S k - 1)%nat -> mk v t i = 0%nat).
  { intros v t i H. unfold mk. rewrite app_nth1 by (rewrite repeat_length; exact H). apply nth_repeat. }
  assert (L : forall v, mk v (S n) k = v).
  { intros v. unfold mk. rewrite app_nth2 by (rewrite repeat_length; lia). rewrite repeat_length. replace (S n * S k + k - (S (S n) * S k - 1))%nat with 0%nat by lia. reflexivity. }
  assert (P : forall v, path_prob p0 tr (map (fun t => map (mk v t) (seq 0 (S k))) (seq 0 (S (S n))))
    = rprod (seq 0 (S k)) (fun _ => p0 0%nat) * (rprod (seq 0 n) (fun _ => rprod (seq 0 (S k)) (fun _ => tr 0%nat 0%nat)) * (rprod (seq 0 k) (fun _ => tr 0%nat 0%nat) * tr 0%nat v))).
  { intros v. rewrite (path_prob_fun p0 tr (mk v) (S k) (S n)). f_equal.
    - apply rprod_ext. intros i Hi. apply in_seq in Hi. rewrite Z by nia. reflexivity.
    - rewrite seq_S, rprod_app. f_equal.
      + apply rprod_ext. intros t Hi. apply in_seq in Hi. apply rprod_ext. intros i Hj. apply in_seq in Hj. rewrite !Z by nia. reflexivity.
      + cbn [rprod Nat.add]. rewrite Rmult_1_r. rewrite seq_S, rprod_app. cbn [rprod Nat.add]. rewrite Rmult_1_r. f_equal.
        * apply rprod_ext. intros i Hi. apply in_seq in Hi. rewrite !Z by nia. reflexivity.
        * rewrite L, Z by nia. reflexivity. }
  rewrite !P. ring.
Qed.
Lemma hidden_states C v l k : (v < C)%nat -> (0 < l * k)%nat -> In (repeat 0%nat (l * k - 1) ++ [v])%list (states (l * k) C).
Proof.
  intros Hv H. apply in_states. split; [rewrite app_length, repeat_length; cbn; lia|]. apply Forall_forall. intros u Hu. apply in_app_iff in Hu.
  destruct Hu as [Hu|[<-|[]]]; [apply repeat_spec in Hu; lia|exact Hv].
Qed.
Lemma paths_differ C l k sigma alpha q q' p : (2 < C)%nat -> (2 <= l)%nat -> (1 <= k)%nat -> 0 < alpha < 1 -> (forall c, 0 < d_alpha p c) -> 0 < q < 1 -> 0 < q' < 1 -> q <> q' ->
  exists x y, In x (states (l * k) C) /\ In y (states (l * k) C) /\
    paths C l k sigma alpha q p x * paths C l k sigma alpha q' p y <> paths C l k sigma alpha q p y * paths C l k sigma alpha q' p x.
Proof.
  intros HC Hl Hk Ha Hp Hq Hq' N. exists (repeat 0%nat (l * k - 1) ++ [0%nat])%list, (repeat 0%nat (l * k - 1) ++ [1%nat])%list.
  split; [apply hidden_states; nia|]. split; [apply hidden_states; nia|].
  destruct l as [|[|n]]; try lia. destruct k as [|k]; try lia. unfold paths. destruct (Nat.eqb_spec C 2) as [|_]; [lia|]. unfold hidden.
  set (G := fun x => rprod (seq 0 (S (S n))) (fun t => exp (- (observed (cat_level (S k) p) sigma p t - cat_level (S k) p (fun i => nth (t * S k + i) x 0%nat)) ^ 2 / (2 * sigma ^ 2)))).
  change (rprod (seq 0 (S (S n))) (fun t => exp (- (observed (cat_level (S k) p) sigma p t - cat_level (S k) p (fun i => nth (t * S k + i) (repeat 0%nat (S (S n) * S k - 1) ++ [0%nat])%list 0%nat)) ^ 2 / (2 * sigma ^ 2)))) with (G (repeat 0%nat (S (S n) * S k - 1) ++ [0%nat])%list).
  change (rprod (seq 0 (S (S n))) (fun t => exp (- (observed (cat_level (S k) p) sigma p t - cat_level (S k) p (fun i => nth (t * S k + i) (repeat 0%nat (S (S n) * S k - 1) ++ [1%nat])%list 0%nat)) ^ 2 / (2 * sigma ^ 2)))) with (G (repeat 0%nat (S (S n) * S k - 1) ++ [1%nat])%list).
  assert (GP : forall x, 0 < G x) by (intros x; apply rprod_pos; intros t _; apply exp_pos).
  pose proof (last_change (first_law C alpha p) (stay_cat C q) k n) as L1. pose proof (last_change (first_law C alpha p) (stay_cat C q') k n) as L2. cbv zeta in L1, L2.
  set (X0 := path_prob (first_law C alpha p) (stay_cat C q) (map (fun t => map (fun i => nth (t * S k + i) (repeat 0%nat (S (S n) * S k - 1) ++ [0%nat])%list 0%nat) (seq 0 (S k))) (seq 0 (S (S n))))) in *.
  set (X1 := path_prob (first_law C alpha p) (stay_cat C q) (map (fun t => map (fun i => nth (t * S k + i) (repeat 0%nat (S (S n) * S k - 1) ++ [1%nat])%list 0%nat) (seq 0 (S k))) (seq 0 (S (S n))))) in *.
  set (Y0 := path_prob (first_law C alpha p) (stay_cat C q') (map (fun t => map (fun i => nth (t * S k + i) (repeat 0%nat (S (S n) * S k - 1) ++ [0%nat])%list 0%nat) (seq 0 (S k))) (seq 0 (S (S n))))) in *.
  set (Y1 := path_prob (first_law C alpha p) (stay_cat C q') (map (fun t => map (fun i => nth (t * S k + i) (repeat 0%nat (S (S n) * S k - 1) ++ [1%nat])%list 0%nat) (seq 0 (S k))) (seq 0 (S (S n))))) in *.
  assert (R1 : 0 < INR C - 1) by (apply lt_INR in HC; cbn [INR] in HC; lra).
  assert (PP : forall q, 0 < q < 1 -> forall f : nat -> nat -> nat, 0 < path_prob (first_law C alpha p) (stay_cat C q) (map (fun t => map (f t) (seq 0 (S k))) (seq 0 (S (S n))))).
  { intros r Hr f. rewrite path_prob_fun. apply Rmult_lt_0_compat; [apply rprod_pos; intros; apply first_law_pos; auto; lia|]. apply rprod_pos. intros t _. apply rprod_pos. intros i _.
    unfold stay_cat. destruct (Nat.eqb _ _); [lra|]. apply Rdiv_lt_0_compat; lra. }
  assert (X0P : 0 < X0) by (apply (PP q Hq (fun t i => nth (t * S k + i) (repeat 0%nat (S (S n) * S k - 1) ++ [0%nat])%list 0%nat))).
  assert (Y0P : 0 < Y0) by (apply (PP q' Hq' (fun t i => nth (t * S k + i) (repeat 0%nat (S (S n) * S k - 1) ++ [0%nat])%list 0%nat))).
  unfold stay_cat in L1, L2. cbn [Nat.eqb] in L1, L2. specialize (L1 ltac:(lra)). specialize (L2 ltac:(lra)).
  set (G0 := G (repeat 0%nat (S (S n) * S k - 1) ++ [0%nat])%list) in *. set (G1 := G (repeat 0%nat (S (S n) * S k - 1) ++ [1%nat])%list) in *.
  assert (G0P : 0 < G0) by apply GP. assert (G1P : 0 < G1) by apply GP. clearbody X0 X1 Y0 Y1 G0 G1. clear PP GP.
  intros E. assert (E1 : X0 * Y1 = X1 * Y0) by (apply (Rmult_eq_reg_r (G0 * G1)); [lra|apply Rgt_not_eq, Rmult_lt_0_compat; assumption]).
  apply N. assert (E2 : X0 * Y0 * ((1 - q') / (INR C - 1)) * q = X0 * Y0 * ((1 - q) / (INR C - 1)) * q') by (replace (X0 * Y0 * ((1 - q') / (INR C - 1)) * q) with (X0 * (Y1 * q') * q) by (rewrite L2; ring);
    replace (X0 * Y0 * ((1 - q) / (INR C - 1)) * q') with (X1 * q * Y0 * q') by (rewrite L1; ring); replace (X0 * (Y1 * q') * q) with (X0 * Y1 * (q' * q)) by ring; rewrite E1; ring).
  assert (E3 : (1 - q') * q = (1 - q) * q').
  { apply (Rmult_eq_reg_l (X0 * Y0 * / (INR C - 1))); [unfold Rdiv in E2; lra|]. apply Rgt_not_eq. apply Rmult_lt_0_compat; [apply Rmult_lt_0_compat; assumption|apply Rinv_0_lt_compat; lra]. }
  lra.
Qed.

(** ** Two shipped jobs *)
Definition lost_ok (repr : lit -> string) (root : string) (ck : checkpoints) : bool :=
  match launch repr ising_lamdasweep_bigger [] root with
  | Some (a :: _) =>
      match configure repr shipped_modules (shipped_files "/workdir/") a with
      | Some c => match start ck (gpus ising_lamdasweep_bigger) c with
                  | Some r => (on_ints (r_sampler r)
                     && match look "lambdaa" (r_section r) with Some (LFloat 1607 4) => true | _ => false end
                     && match look "mu" (r_section r) with Some (LInt 0) | Some (LFloat 0 _) => true | _ => false end
                     && match look "init_sigma" (r_section r) with Some (LInt 0) | Some (LFloat 0 _) => true | _ => false end
                     && match look "shape" (r_section r) with Some (LTuple [100%Z; 100%Z]) => true | _ => false end)%bool
                  | None => false end
      | None => false end
  | _ => false
  end.
Lemma lost_check repr root ck : lost_ok repr root ck = true.
Proof. vm_compute. reflexivity. Qed.
Definition categ_ok (repr : lit -> string) (root : string) (ck : checkpoints) : bool :=
  match launch repr fhmm_categ_sweep [] root with
  | Some (a :: _) =>
      match configure repr shipped_modules (shipped_files "/workdir/") a with
      | Some c => match start ck (gpus fhmm_categ_sweep) c with
                  | Some r => (match look "num_categories" (r_section r) with Some (LInt 4) => true | _ => false end
                     && match look "alpha" (r_section r) with Some (LFloat 1 1) => true | _ => false end
                     && match look "beta" (r_section r) with Some (LFloat 8 1) => true | _ => false end
                     && match look "shape" (r_section r) with Some (LTuple [200%Z; 10%Z]) => true | _ => false end)%bool
                  | None => false end
      | None => false end
  | _ => false
  end.
Lemma categ_check repr root ck : categ_ok repr root ck = true.
Proof. vm_compute. reflexivity. Qed.

Ltac lit_case H := match type of H with (match ?x with _ => _ end = true) => destruct x; try discriminate H end.
Lemma is_float m k z s : (match look k m with Some (LFloat z' s') => (Z.eqb z z' && Nat.eqb s s')%bool | _ => false end) = true -> setting m k = (IZR z / 10 ^ s)%R.
Proof. unfold setting. destruct (look k m) as [[]|]; try discriminate. intros H. apply andb_prop in H. destruct H as [H1 H2]. apply Z.eqb_eq in H1. apply Nat.eqb_eq in H2. subst. reflexivity. Qed.

Lemma ising_shipped_lost repr root ck : exists jobs a c r, launch repr ising_lamdasweep_bigger [] root = Some jobs /\ In a jobs /\
  configure repr shipped_modules (shipped_files "/workdir/") a = Some c /\ start ck (gpus ising_lamdasweep_bigger) c = Some r /\ r_model r = "ising" /\
  setting (r_section r) "lambdaa" = 1607 / 10 ^ 4 /\
  forall p grad, exists T, run_target (r_model r) (r_section r) p grad (r_sampler r) = Some T /\
    (forall x y, In x (states (t_dim T) (t_C T)) -> In y (states (t_dim T) (t_C T)) -> exp (t_fw T x) = exp (t_fw T y)) /\
    exists x y, In x (states (t_dim T) (t_C T)) /\ In y (states (t_dim T) (t_C T)) /\ weight (r_model r) (r_section r) p x <> weight (r_model r) (r_section r) p y.
Proof.
  pose proof (lost_check repr root ck) as K. unfold lost_ok in K. destruct (launch repr ising_lamdasweep_bigger [] root) as [[|a l]|] eqn:El; try discriminate K.
  assert (Hi : In ("classical_models/ising/lamdasweep_bigger", ising_lamdasweep_bigger) shipped_sweeps) by (apply (nth_error_In _ 13); reflexivity).
  assert (Hc : classical "ising") by (do 2 right; left; reflexivity).
  destruct (shipped_classical repr root _ _ _ a Hi Hc El (or_introl eq_refl) ck) as (c & r & E1 & E2 & E3 & _ & _ & W & S & _). change (j_model ising_lamdasweep_bigger) with "ising" in E3.
  rewrite E1, E2 in K. exists (a :: l), a, c, r. split; [reflexivity|]. split; [left; reflexivity|]. split; [exact E1|]. split; [exact E2|]. split; [exact E3|].
  rewrite E3 in *. revert K W S. generalize (r_section r) (r_sampler r). intros m k K W S.
  apply andb_prop in K. destruct K as [K K5]. apply andb_prop in K. destruct K as [K K4]. apply andb_prop in K. destruct K as [K K3]. apply andb_prop in K. destruct K as [K1 K2].
  assert (La : setting m "lambdaa" = 1607 / 10 ^ 4).
  { unfold setting. destruct (look "lambdaa" m) as [[]|]; try discriminate K2. repeat (lit_case K2). reflexivity. }
  assert (Mu : setting m "mu" = 0) by (unfold setting; destruct (look "mu" m) as [[]|]; try discriminate K3; repeat (lit_case K3); try reflexivity; apply Rmult_0_l).
  assert (Si : setting m "init_sigma" = 0) by (unfold setting; destruct (look "init_sigma" m) as [[]|]; try discriminate K4; repeat (lit_case K4); try reflexivity; apply Rmult_0_l).
  assert (Sh : shape m = [Z.to_nat 100; Z.to_nat 100]).
  { unfold shape. destruct (look "shape" m) as [[]|]; try discriminate K5. repeat (lit_case K5). reflexivity. }
  split; [exact La|]. intros p grad. destruct (run_target_some "ising" m p grad k Hc W) as (T & ET & ED & EC & _ & _ & _ & HL & _). exists T. split; [exact ET|].
  pose proof W as (_ & _ & _ & _ & Hi2 & _). rewrite (Hi2 eq_refl) in EC.
  assert (LA : Rabs (setting m "lambdaa") < 1) by (rewrite La, Rabs_pos_eq; lra). specialize (HL eq_refl K1 LA).
  assert (H100 : (1 < Z.to_nat 100)%nat) by lia. generalize dependent (Z.to_nat 100). intros n Sh H100.
  assert (ED' : t_dim T = (n * n)%nat) by (rewrite ED, Sh; cbn [fold_right]; lia). split.
  - assert (U : forall x, In x (states (t_dim T) (t_C T)) -> exp (t_fw T x) = 1 * exp 0 \/ exp (t_fw T x) = exp 0).
    { intros x Hx. right. destruct (HL x Hx) as (h & w & E & ->). rewrite Mu, Si. unfold spins. f_equal.
      rewrite rsum_const0; [ring|]. intros cc _. unfold field. destruct Rlt_dec; ring. }
    intros x y Hx Hy. destruct (U x Hx) as [-> | ->], (U y Hy) as [-> | ->]; ring.
  - unfold weight. rewrite Sh. cbn [String.eqb Ascii.eqb Bool.eqb]. rewrite La, Mu, Si, ED', EC. apply spins_differ; [lia|exact H100|lra].
Qed.

Lemma fhmm_shipped_wrong repr root ck : exists jobs a c r, launch repr fhmm_categ_sweep [] root = Some jobs /\ In a jobs /\
  configure repr shipped_modules (shipped_files "/workdir/") a = Some c /\ start ck (gpus fhmm_categ_sweep) c = Some r /\ r_model r = "fhmm" /\
  categories (r_section r) = 4%nat /\ setting (r_section r) "beta" = 8 / 10 /\
  forall p grad, drawn (r_section r) p -> exists T, run_target (r_model r) (r_section r) p grad (r_sampler r) = Some T /\
    exists x y, In x (states (t_dim T) (t_C T)) /\ In y (states (t_dim T) (t_C T)) /\
      exp (t_fw T x) * weight (r_model r) (r_section r) p y <> exp (t_fw T y) * weight (r_model r) (r_section r) p x.
Proof.
  pose proof (categ_check repr root ck) as K. unfold categ_ok in K. destruct (launch repr fhmm_categ_sweep [] root) as [[|a l]|] eqn:El; try discriminate K.
  assert (Hi : In ("classical_models/fhmm/categ_sweep", fhmm_categ_sweep) shipped_sweeps) by (apply (nth_error_In _ 11); reflexivity).
  assert (Hc : classical "fhmm") by (do 4 right; left; reflexivity).
  destruct (shipped_classical repr root _ _ _ a Hi Hc El (or_introl eq_refl) ck) as (c & r & E1 & E2 & E3 & _ & _ & W & S & _). change (j_model fhmm_categ_sweep) with "fhmm" in E3.
  rewrite E1, E2 in K. exists (a :: l), a, c, r. split; [reflexivity|]. split; [left; reflexivity|]. split; [exact E1|]. split; [exact E2|]. split; [exact E3|].
  rewrite E3 in *. revert K W S. generalize (r_section r) (r_sampler r). intros m k K W S.
  apply andb_prop in K. destruct K as [K K5]. apply andb_prop in K. destruct K as [K K4]. apply andb_prop in K. destruct K as [K2 K3].
  assert (Ca : categories m = 4%nat) by (unfold categories; destruct (look "num_categories" m) as [[]|]; try discriminate K2; repeat (lit_case K2); reflexivity).
  assert (Al : setting m "alpha" = 1 / 10).
  { unfold setting. destruct (look "alpha" m) as [[]|]; try discriminate K3. repeat (lit_case K3). lra. }
  assert (Be : setting m "beta" = 8 / 10).
  { unfold setting. destruct (look "beta" m) as [[]|]; try discriminate K4. repeat (lit_case K4). lra. }
  assert (Sh : shape m = [Z.to_nat 200; Z.to_nat 10]).
  { unfold shape. destruct (look "shape" m) as [[]|]; try discriminate K5. repeat (lit_case K5). reflexivity. }
  split; [exact Ca|]. split; [exact Be|]. intros p grad Hp. destruct (run_target_some "fhmm" m p grad k Hc W) as (T & ET & ED & EC & _ & _ & _ & _ & HL). exists T. split; [exact ET|].
  destruct (HL eq_refl ltac:(lia) Hp) as (h & w & E & cc & Cp & HX). clear HL.
  assert (H200 : (2 <= Z.to_nat 200)%nat) by lia. assert (H10 : (1 <= Z.to_nat 10)%nat) by lia. generalize dependent (Z.to_nat 200). generalize dependent (Z.to_nat 10). intros kk G1 n Sh G2.
  rewrite Sh in E. injection E as <- <-. assert (ED' : t_dim T = (n * kk)%nat) by (rewrite ED, Sh; cbn [fold_right]; lia).
  assert (I4 : INR 4 = 4) by (cbn; lra).
  assert (Q : effective_stay 4 (8 / 10) = 37 / 82) by (unfold effective_stay; rewrite I4; field).
  rewrite Ca, Be, Al, Q in HX. rewrite EC, Ca, ED' in *.
  destruct (paths_differ 4 n kk (setting m "sigma") (1 / 10) (37 / 82) (8 / 10) p) as (x & y & Hx & Hy & N); try lra; try lia; [apply Hp|].
  exists x, y. split; [exact Hx|]. split; [exact Hy|]. unfold weight. rewrite Sh. cbn [String.eqb Ascii.eqb Bool.eqb]. rewrite Ca, Al, Be, (HX x Hx), (HX y Hy). intros E. apply N.
  apply (Rmult_eq_reg_l cc); [lra|lra].
Qed.
