From Coq Require Import String Ascii List Bool ZArith Lia Arith.
From Verif.Spec Require Import ConfigSpec LaunchSpec SamplerRun.
From Verif.Model Require Import Config Launch RunConfigs Start FullRun.
From Verif.Proof Require Import LaunchProof.
Import ListNotations.
Local Open Scope string_scope.

Definition zs_eqb (a b : list Z) : bool := if list_eq_dec Z.eq_dec a b then true else false.
Definition lit_same (a b : lit) : bool :=
  match a, b with
  | LStr s, LStr t => String.eqb s t
  | LInt x, LInt y => Z.eqb x y
  | LInt x, LFloat y s => (Z.eqb x y && Nat.eqb s 0)%bool
  | LFloat x s, LFloat y t => (Z.eqb x y && Nat.eqb s t)%bool
  | LBool x, LBool y => Bool.eqb x y
  | LTuple x, LTuple y => zs_eqb x y
  | LStr s, LTuple y => match tuple_of s with Some x => zs_eqb x y | None => false end
  | _, _ => false
  end.
Lemma zs_eqb_eq a b : zs_eqb a b = true -> a = b.
Proof. unfold zs_eqb. destruct (list_eq_dec Z.eq_dec a b); [auto|discriminate]. Qed.
Lemma lit_same_reads repr v w : lit_same v w = true -> reads repr v w.
Proof.
  unfold reads. destruct v, w; cbn [lit_same]; intros H; try discriminate.
  - apply String.eqb_eq in H. subst. auto.
  - destruct (tuple_of s) as [x|] eqn:E; [|discriminate]. apply zs_eqb_eq in H. subst. right. right. eauto.
  - apply Z.eqb_eq in H. subst. auto.
  - apply andb_prop in H. destruct H as [H1 H2]. apply Z.eqb_eq in H1. apply Nat.eqb_eq in H2. subst. auto.
  - apply andb_prop in H. destruct H as [H1 H2]. apply Z.eqb_eq in H1. apply Nat.eqb_eq in H2. subst. auto.
  - apply Bool.eqb_prop in H. subst. auto.
  - apply zs_eqb_eq in H. subst. auto.
Qed.
Definition found (v : lit) (o : option lit) : bool := match o with Some w => lit_same v w | None => false end.
Definition arg_ok (c : lconfig) (kv : string * lit) : bool :=
  let (k, v) := kv in
  if String.eqb k "config.experiment.save_root" then true else
  match after "model_config." k with
  | Some r => found v (look r (l_model c))
  | None => match after "sampler_config." k with
            | Some r => found v (look r (l_sampler c))
            | None => match after "config.experiment." k with Some r => found v (look r (l_exp c)) | None => true end
            end
  end.
Lemma found_reads repr v o : found v o = true -> exists w, o = Some w /\ reads repr v w.
Proof. destruct o as [w|]; cbn [found]; [|discriminate]. intros H. exists w. split; [reflexivity|]. apply lit_same_reads, H. Qed.
Lemma arg_ok_carried repr c k v : arg_ok c (k, v) = true -> k <> "config.experiment.save_root" -> carried repr c k v.
Proof.
  unfold arg_ok. intros H N. destruct (String.eqb_spec k "config.experiment.save_root") as [|_]; [contradiction|]. split; [|split]; intros r ->.
  - rewrite after_app in H. apply found_reads, H.
  - change (after "model_config." ("sampler_config." ++ r)) with (@None string) in H. cbv iota in H. rewrite after_app in H. apply found_reads, H.
  - change (after "model_config." ("config.experiment." ++ r)) with (@None string) in H. change (after "sampler_config." ("config.experiment." ++ r)) with (@None string) in H. cbv iota in H. rewrite after_app in H. apply found_reads, H.
Qed.

Definition known_balancing (ty : string) : bool := existsb (String.eqb ty) ["SQRT"; "RATIO"; "MAX"; "MIN"].
Definition steps (C : Z) (k : sampler) : bool :=
  match k with
  | SGibbs | SBlock _ | SWalk _ => true
  | SHamming b => Nat.leb 1 b
  | SGwg ty _ | SGwgAdapt ty _ => (known_balancing ty && Z.eqb C 2)%bool
  | SGwgCat ty => known_balancing ty
  | SPath ty approx nf rate => (known_balancing ty && approx && match rate with Some _ => true | None => (Nat.leb 1 nf && Nat.leb nf 2)%bool end)%bool
  | SDmala ty _ _ => known_balancing ty
  | SDlmc ty _ _ solver => (known_balancing ty && (String.eqb solver "interpolate" || String.eqb solver "euler_forward"))%bool
  | SLocal _ => false
  end.
Lemma known_balancing_ok ty : known_balancing ty = true -> balancing ty.
Proof. unfold known_balancing, balancing. rewrite existsb_exists. intros (x & Hi & E). apply String.eqb_eq in E. subst. exact Hi. Qed.
Lemma steps_usable C k : steps C k = true -> forall T, Z.of_nat (t_C T) = C -> (2 <= t_dim T)%nat -> usable T k.
Proof.
  intros H T HC Hd. destruct k; cbn [steps usable] in *; auto.
  - apply Nat.leb_le, H.
  - apply andb_prop in H. destruct H as [H1 H2]. apply Z.eqb_eq in H2. split; [apply known_balancing_ok, H1|lia].
  - apply andb_prop in H. destruct H as [H1 H2]. apply Z.eqb_eq in H2. split; [apply known_balancing_ok, H1|lia].
  - apply known_balancing_ok, H.
  - apply andb_prop in H. destruct H as [H H3]. apply andb_prop in H. destruct H as [H1 H2]. split; [apply known_balancing_ok, H1|]. split.
    + intros ->. apply andb_prop in H3. destruct H3 as [H3 H4]. apply Nat.leb_le in H3, H4. lia.
    + intros ->. discriminate.
  - apply known_balancing_ok, H.
  - apply andb_prop in H. destruct H as [H1 H2]. split; [apply known_balancing_ok, H1|]. apply orb_prop in H2. destruct H2 as [E|E]; apply String.eqb_eq in E; auto.
  - discriminate.
Qed.

(** What is checked of one job. *)
Definition run_ok (C0 : Z) (c : lconfig) (j : job_config) (a : table lit) (r : started_run) : bool :=
  (String.eqb (r_model r) (j_model j) && String.eqb (r_experiment r) (asked "config.experiment.name" a (fst (kind j))) && String.eqb (r_evaluator r) (snd (kind j))
   && match as_int (look "num_categories" (r_section r)) with Some C => (Z.eqb C C0 && Z.leb 2 C && steps C (r_sampler r))%bool | None => false end
   && match r_class r with None => negb (deep (j_model j)) | Some b => (deep (j_model j) && match as_int (look "num_categories" (r_section r)) with Some C => Bool.eqb b (Z.eqb C 2) | None => false end)%bool end
   && match as_str (look "name" (l_sampler c)) with Some s => String.eqb s (asked "sampler_config.name" a (j_sampler j)) | None => false end)%bool.
Definition job_ok (repr : lit -> string) (vis hid : Z) (sh im : list Z) (j : job_config) (a : table lit) : bool :=
  match configure repr shipped_modules (shipped_files "/workdir/") a with
  | Some c =>
      (forallb (arg_ok c) a &&
      match as_int (look "num_categories" (l_model c)), as_str (look "name" (l_model c)) with
      | Some C, Some n => match start (fun _ => Some (stored n C vis hid sh im)) (gpus j) c with Some r => run_ok C c j a r | None => false end
      | _, _ => false
      end)%bool
  | None => false
  end.
Definition sweep_ok (repr : lit -> string) (root : string) (vis hid : Z) (sh im : list Z) (x : string * job_config) : bool :=
  (String.eqb (fst x) "co/maxcut/optsicom_sampler_sweep" ||
   match launch repr (snd x) [] root with Some jobs => forallb (job_ok repr vis hid sh im (snd x)) jobs | None => false end)%bool.
Lemma sweeps_ok repr root vis hid sh im : forallb (sweep_ok repr root vis hid sh im) shipped_sweeps = true.
Proof. vm_compute. reflexivity. Qed.

Lemma start_ext ck ck' d c : (forall p, ck p = ck' p) -> start ck d c = start ck' d c.
Proof.
  intros H. assert (B : forall m, build_model ck m = build_model ck' m).
  { intros m. unfold build_model, load_settings. destruct (as_str (look "name" m)); [|reflexivity]. destruct (model_keys s); [|reflexivity]. destruct (deep s); [|reflexivity].
    destruct (look "data_path" m) as [[p| | | |]|]; rewrite ?H; reflexivity. }
  unfold start. rewrite B. reflexivity.
Qed.
Lemma optsicom_none repr root : forall jobs, launch repr maxcut_optsicom_sampler_sweep [] root = Some jobs ->
  List.length jobs = 8 /\ forall a, In a jobs -> configure repr shipped_modules (shipped_files "/workdir/") a = None.
Proof.
  intros jobs H.
  assert (E : match launch repr maxcut_optsicom_sampler_sweep [] root with Some jobs => (Nat.eqb (List.length jobs) 8 && forallb (fun a => match configure repr shipped_modules (shipped_files "/workdir/") a with None => true | Some _ => false end) jobs)%bool | None => false end = true) by (vm_compute; reflexivity).
  rewrite H in E. apply andb_prop in E. destruct E as [E1 E2]. split; [apply Nat.eqb_eq, E1|]. intros a Ha. rewrite forallb_forall in E2. specialize (E2 a Ha). destruct (configure repr shipped_modules (shipped_files "/workdir/") a); [discriminate|reflexivity].
Qed.
Lemma launch_some repr root nm j : In (nm, j) shipped_sweeps -> exists jobs, launch repr j [] root = Some jobs /\ jobs <> [].
Proof.
  intros Hi. assert (E : forallb (fun x => match launch repr (snd x) [] root with Some (_ :: _) => true | _ => false end) shipped_sweeps = true) by (vm_compute; reflexivity).
  rewrite forallb_forall in E. specialize (E (nm, j) Hi). cbn [snd] in E. destruct (launch repr j [] root) as [[|a l]|]; try discriminate. exists (a :: l). split; [reflexivity|discriminate].
Qed.
Lemma shipped_starts repr root nm j jobs a : In (nm, j) shipped_sweeps -> nm <> "co/maxcut/optsicom_sampler_sweep" ->
  launch repr j [] root = Some jobs -> In a jobs ->
  exists c C, configure repr shipped_modules (shipped_files "/workdir/") a = Some c /\
    (forall k v, In (k, v) a -> k <> "config.experiment.save_root" -> carried repr c k v) /\
    look "num_categories" (l_model c) = Some (LInt C) /\
    look "name" (l_sampler c) = Some (LStr (asked "sampler_config.name" a (j_sampler j))) /\
    forall ck vis hid sh im, (forall p, ck p = Some (stored (j_model j) C vis hid sh im)) ->
      exists r, start ck (gpus j) c = Some r /\ r_model r = j_model j /\
        r_experiment r = asked "config.experiment.name" a (fst (kind j)) /\ r_evaluator r = snd (kind j) /\
        look "num_categories" (r_section r) = Some (LInt C) /\ (2 <= C)%Z /\
        r_class r = (if deep (j_model j) then Some (Z.eqb C 2) else None) /\
        forall T, Z.of_nat (t_C T) = C -> (2 <= t_dim T)%nat -> usable T (r_sampler r).
Proof.
  intros Hi Hn Hl Ha.
  assert (K : forall vis hid sh im, job_ok repr vis hid sh im j a = true).
  { intros vis hid sh im. pose proof (sweeps_ok repr root vis hid sh im) as E. rewrite forallb_forall in E. specialize (E (nm, j) Hi). unfold sweep_ok in E. cbn [fst snd] in E.
    apply orb_prop in E. destruct E as [E|E]; [apply String.eqb_eq in E; contradiction|]. rewrite Hl in E. rewrite forallb_forall in E. exact (E a Ha). }
  unfold job_ok in K. destruct (configure repr shipped_modules (shipped_files "/workdir/") a) as [c|]; [|discriminate (K 0%Z 0%Z [] [])].
  exists c. destruct (as_int (look "num_categories" (l_model c))) as [C|] eqn:EC.
  2:{ specialize (K 0%Z 0%Z [] []). apply andb_prop in K. destruct K as [_ K]. discriminate. }
  destruct (as_str (look "name" (l_model c))) as [n|] eqn:En.
  2:{ specialize (K 0%Z 0%Z [] []). apply andb_prop in K. destruct K as [_ K]. discriminate. }
  exists C. split; [reflexivity|].
  assert (HC : look "num_categories" (l_model c) = Some (LInt C)) by (unfold as_int in EC; destruct (look "num_categories" (l_model c)) as [[]|]; congruence).
  split; [|split; [exact HC|]].
  { intros k v Hk Nk. specialize (K 0%Z 0%Z [] []). apply andb_prop in K. destruct K as [K _]. rewrite forallb_forall in K. apply arg_ok_carried; [exact (K (k, v) Hk)|exact Nk]. }
  assert (KR : forall vis hid sh im, exists r, start (fun _ => Some (stored n C vis hid sh im)) (gpus j) c = Some r /\ run_ok C c j a r = true).
  { intros vis hid sh im. specialize (K vis hid sh im). apply andb_prop in K. destruct K as [_ K].
    match type of K with match ?x with _ => _ end = true => destruct x as [r|]; [exists r; auto|discriminate] end. }
  split.
  { destruct (KR 0%Z 0%Z [] []) as (r & _ & E). unfold run_ok in E. apply andb_prop in E. destruct E as [_ E]. unfold as_str in E. destruct (look "name" (l_sampler c)) as [[]|]; try discriminate. apply String.eqb_eq in E. subst. reflexivity. }
  intros ck vis hid sh im Hck.
  assert (Hnj : n = j_model j).
  { destruct (KR 0%Z 0%Z [] []) as (r & Hs & E). unfold run_ok in E. repeat (apply andb_prop in E; destruct E as [E _]). apply String.eqb_eq in E. rewrite <- E.
    unfold start in Hs. rewrite En in Hs. repeat match type of Hs with context [match ?x with _ => _ end] => destruct x; try discriminate end. inversion Hs. reflexivity. }
  destruct (KR vis hid sh im) as (r & Hs & E). exists r. split.
  { rewrite (start_ext ck (fun _ => Some (stored n C vis hid sh im))); [exact Hs|]. intros p. rewrite Hck, Hnj. reflexivity. }
  unfold run_ok in E. apply andb_prop in E. destruct E as [E _]. apply andb_prop in E. destruct E as [E E5]. apply andb_prop in E. destruct E as [E E4]. apply andb_prop in E. destruct E as [E E3]. apply andb_prop in E. destruct E as [E1 E2].
  apply String.eqb_eq in E1, E2, E3. split; [exact E1|]. split; [exact E2|]. split; [exact E3|].
  destruct (as_int (look "num_categories" (r_section r))) as [C'|] eqn:E6; [|discriminate]. apply andb_prop in E4. destruct E4 as [E4 E8]. apply andb_prop in E4. destruct E4 as [E9 E7]. apply Z.eqb_eq in E9. subst C'.
  split; [unfold as_int in E6; destruct (look "num_categories" (r_section r)) as [[]|]; congruence|]. split; [apply Z.leb_le, E7|]. split.
  - destruct (r_class r) as [b|]; [|destruct (deep (j_model j)); [discriminate|reflexivity]]. apply andb_prop in E5. destruct E5 as [-> E5]. apply Bool.eqb_prop in E5. subst. reflexivity.
  - intros T. apply (steps_usable C). exact E8.
Qed.
