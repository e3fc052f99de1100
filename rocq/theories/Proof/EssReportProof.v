(** Proofs about the effective sample sizes in the report. *)
From Coq Require Import Reals String Ascii List Bool ZArith Arith Lia Lra.
From Verif.Model Require Import Utils Launch Report Experiment EssEval EssReport RunConfigs Start.
From Verif.Spec Require Import ConfigSpec LaunchSpec ReportSpec EssReportSpec.
From Verif.Proof Require Import ReportText ReportShipped LaunchProof.
Import ListNotations.
Local Open Scope string_scope.

Lemma app_assoc_s a b c : (a ++ b) ++ c = a ++ b ++ c.
Proof. induction a as [|x a IH]; cbn; [reflexivity|]. rewrite IH. reflexivity. Qed.
Lemma app_length_s a b : String.length (a ++ b) = (String.length a + String.length b)%nat.
Proof. induction a as [|x a IH]; cbn; [reflexivity|]. rewrite IH. reflexivity. Qed.
Lemma list_app_s a b : list_ascii_of_string (a ++ b) = (list_ascii_of_string a ++ list_ascii_of_string b)%list.
Proof. induction a as [|x a IH]; cbn; [reflexivity|]. rewrite IH. reflexivity. Qed.
Lemma substring_head m y : substring 0 (String.length m) (m ++ y) = m.
Proof. induction m as [|c m IH]; cbn; [destruct y; reflexivity|]. rewrite IH. reflexivity. Qed.
Lemma substring_mid x m y : substring (String.length x) (String.length m) (x ++ m ++ y) = m.
Proof. induction x as [|c x IH]; cbn; [apply substring_head|exact IH]. Qed.

Lemma solid_blank s c : solid s -> In c (list_ascii_of_string s) -> blank c = false.
Proof.
  intros (_ & H) Hc. specialize (H c Hc). unfold blank. apply orb_false_iff. rewrite <- (ascii_nat_embedding c) in H.
  set (n := nat_of_ascii c) in *. assert (K : n <> 32 /\ n <> 9 /\ n <> 10 /\ n <> 11 /\ n <> 12 /\ n <> 13).
  { repeat split; intros E; apply H; rewrite E; cbn; tauto. }
  split; [apply Nat.eqb_neq; lia|]. destruct (Nat.leb_spec 9 n); destruct (Nat.leb_spec n 13); try reflexivity. lia.
Qed.
Lemma solid_free s : solid s -> free_of " "%char s.
Proof. intros H. unfold free_of. intros K. pose proof (solid_blank s _ H K). discriminate. Qed.
Lemma drop_spaces l t : (forall c, In c l -> c = " "%char) -> drop_blanks (l ++ t)%list = drop_blanks t.
Proof. induction l as [|c l IH]; intros H; [reflexivity|]. cbn [app drop_blanks]. rewrite (H c (or_introl eq_refl)). apply IH. intros c' K. apply H. right. exact K. Qed.
Lemma drop_solid c t : blank c = false -> drop_blanks (c :: t) = c :: t.
Proof. intros H. cbn. rewrite H. reflexivity. Qed.
(** A text that begins and ends with solid texts is not stripped further. *)
Lemma strip_mid l m r a b : spaces l -> spaces r -> solid a -> solid b -> (exists x, m = a ++ x) -> (exists y, m = y ++ b) -> strip (l ++ m ++ r) = m.
Proof.
  intros Hl Hr Ha Hb (x & Ex) (y & Ey). unfold strip. rewrite !list_app_s. rewrite (drop_spaces _ _ Hl).
  assert (A : exists c t, list_ascii_of_string m = c :: t /\ blank c = false).
  { destruct a as [|c a']; [destruct Ha as (N & _); congruence|]. subst m. cbn [append list_ascii_of_string]. eexists. eexists. split; [reflexivity|]. apply (solid_blank _ c Ha). left. reflexivity. }
  assert (B : exists c t, rev (list_ascii_of_string m) = c :: t /\ blank c = false).
  { rewrite Ey, list_app_s, rev_app_distr. destruct (rev (list_ascii_of_string b)) as [|c t] eqn:E.
    - destruct b as [|c b']; [destruct Hb as (N & _); congruence|]. cbn in E. destruct (rev (list_ascii_of_string b')); discriminate.
    - exists c, (t ++ rev (list_ascii_of_string y))%list. split; [reflexivity|]. apply (solid_blank _ c Hb). apply in_rev. rewrite E. left. reflexivity. }
  destruct A as (c & t & E & Hc). destruct B as (c' & t' & E' & Hc'). rewrite E. cbn [app]. rewrite (drop_solid c (t ++ _)%list Hc). change (c :: (t ++ list_ascii_of_string r)%list) with ((c :: t) ++ list_ascii_of_string r)%list.
  rewrite <- E. rewrite rev_app_distr. rewrite (drop_spaces _ _ (fun d Hd => Hr d (proj2 (in_rev _ _) Hd))). rewrite E', (drop_solid _ _ Hc'), <- E', rev_involutive. apply string_of_list_ascii_of_string.
Qed.
Lemma app_nil_s a : a ++ "" = a.
Proof. induction a as [|x a IH]; cbn; [reflexivity|]. rewrite IH. reflexivity. Qed.
Lemma no_spaces : spaces "".
Proof. intros c []. Qed.
Lemma strip_solid p a : spaces p -> solid a -> strip (p ++ a) = a.
Proof. intros Hp Ha. rewrite <- (app_nil_s a) at 1. apply (strip_mid p a "" a a Hp no_spaces Ha Ha); [exists ""; symmetry; apply app_nil_s|exists ""; reflexivity]. Qed.

(** The text between the brackets. *)
Lemma read_inner to_num x y row a b : String.length x = 2 -> String.length y = 2 -> two_numbers row a b ->
  extract_floats to_num (x ++ row ++ y) = match to_num a, to_num b with Some u, Some v => Some (u, v) | _, _ => None end.
Proof.
  intros Hx Hy (Ha & Hb & l & p & r & Hl & Hp & Hr & ->). unfold extract_floats. rewrite !(app_length_s x), (app_length_s _ y), Hx, Hy. set (row := l ++ a ++ " " ++ p ++ b ++ r).
  replace (2 + (String.length row + 2) - 4)%nat with (String.length row) by lia. rewrite <- Hx, substring_mid. subst row.
  assert (E : l ++ a ++ " " ++ p ++ b ++ r = l ++ (a ++ " " ++ p ++ b) ++ r).
  { f_equal. rewrite app_assoc_s. f_equal. cbn [append]. f_equal. rewrite app_assoc_s. reflexivity. }
  rewrite E, (strip_mid l (a ++ " " ++ p ++ b) r a b Hl Hr Ha Hb); [|eexists; reflexivity|exists (a ++ " " ++ p); rewrite app_assoc_s; reflexivity]. cbv zeta.
  change (a ++ " " ++ p ++ b) with (a ++ String " " (p ++ b)). change " " with (String " " ""). unfold upto. rewrite (index_char " "%char a (p ++ b) (solid_free a Ha)), (past_app " "%char a (p ++ b) (solid_free a Ha)).
  rewrite substring_head. unfold py_float. rewrite (strip_solid p b Hp Hb). pose proof (strip_solid "" a no_spaces Ha) as Sa. cbn [append] in Sa. rewrite Sa. reflexivity.
Qed.
Lemma read_parallel to_num row a b : two_numbers row a b ->
  extract_floats to_num (metric_text true row) = match to_num a, to_num b with Some u, Some v => Some (u, v) | _, _ => None end.
Proof. intros H. exact (read_inner to_num "[[" "]]" row a b eq_refl eq_refl H). Qed.
(** Without the second pair of brackets one character of each number is cut. *)
Lemma read_single to_num c a p b e : spaces p -> solid a -> solid b ->
  extract_floats to_num (metric_text false (String c a ++ " " ++ p ++ b ++ String e "")) = match to_num a, to_num b with Some u, Some v => Some (u, v) | _, _ => None end.
Proof.
  intros Hp Ha Hb. assert (T : two_numbers (a ++ " " ++ p ++ b) a b).
  { split; [exact Ha|]. split; [exact Hb|]. exists "", p, "". split; [exact no_spaces|]. split; [exact Hp|]. split; [exact no_spaces|]. rewrite app_nil_s. reflexivity. }
  rewrite <- (read_inner to_num (String "[" (String c "")) (String e "]") _ a b eq_refl eq_refl T). f_equal. unfold metric_text. cbn [append]. do 2 f_equal. rewrite !app_assoc_s. cbn [append]. f_equal. f_equal. rewrite !app_assoc_s. reflexivity.
Qed.

(** ** The factor *)
Lemma half_nat L : Int_part (INR L / 2) = Z.of_nat (L / 2).
Proof.
  pose proof (base_Int_part (INR L / 2)) as (B1 & B2). pose proof (Nat.div_mod L 2 ltac:(lia)) as H. pose proof (Nat.mod_upper_bound L 2 ltac:(lia)) as U.
  assert (E : INR L = (2 * INR (L / 2) + INR (L mod 2))%R) by (rewrite H at 1; rewrite plus_INR, mult_INR; reflexivity).
  assert (0 <= INR (L mod 2) <= 1)%R. { split; [apply pos_INR|]. change 1%R with (INR 1). apply le_INR. lia. }
  set (z := Int_part (INR L / 2)) in *. rewrite INR_IZR_INZ with (n := (L / 2)%nat) in E.
  assert (z < Z.of_nat (L / 2) + 1)%Z by (apply lt_IZR; rewrite plus_IZR; lra). assert (Z.of_nat (L / 2) < z + 1)%Z by (apply lt_IZR; rewrite plus_IZR; lra). lia.
Qed.
Lemma scale_of to_num d L : tells_length to_num d L -> ess_scale to_num d = Some (INR (L / 2)).
Proof.
  unfold tells_length, ess_scale. destruct (look "chain_length" d) as [t|].
  - intros (S & E). unfold py_float. pose proof (strip_solid "" t no_spaces S) as St. cbn [append] in St. rewrite St, E. cbn [option_map]. rewrite half_nat, <- INR_IZR_INZ. reflexivity.
  - intros ->. f_equal. rewrite INR_IZR_INZ. f_equal.
Qed.
Lemma results_parallel to_num d L rt re vt ve xt xe delta : tells_length to_num d L -> shows_pair to_num delta xe re ve -> shows_pair to_num delta xt rt vt ->
  ess_results to_num d [(metric_text true re, metric_text true rt)] =
    Some [("ess_ee", fst ve * INR (L / 2)); ("ess_ee_std", snd ve * INR (L / 2)); ("ess_clock", fst vt); ("ess_clock_std", snd vt)]%R.
Proof.
  intros HL (a & b & Te & Ea & Eb & _) (a' & b' & Tt & Ea' & Eb' & _). unfold ess_results. cbn [fold_left]. unfold ess_row. cbn [fst snd].
  rewrite (read_parallel to_num re a b Te), Ea, Eb, (scale_of to_num d L HL), (read_parallel to_num rt a' b' Tt), Ea', Eb'. reflexivity.
Qed.
Lemma near_scale delta x v f : (0 <= f)%R -> near delta x v -> near delta (x * f) (v * f).
Proof.
  unfold near. intros Hf H. replace (v * f - x * f)%R with ((v - x) * f)%R by ring. rewrite !Rabs_mult, (Rabs_pos_eq f Hf). rewrite <- Rmult_assoc. apply Rmult_le_compat_r; assumption.
Qed.
Lemma even_half L : Nat.Even L -> INR L = (2 * INR (L / 2))%R.
Proof. intros (k & ->). rewrite Nat.mul_comm, Nat.div_mul by lia. rewrite mult_INR. cbn. lra. Qed.
Lemma scaled E calls L : Nat.Even L -> 0 < L -> 0 < calls -> (ess_per_call E calls (1 / 2) * INR (L / 2) = per_step_calls E calls L)%R.
Proof.
  intros He HL Hc. unfold ess_per_call, per_step_calls. pose proof (even_half L He) as H. assert (0 < INR L)%R by (apply lt_0_INR, HL). assert (0 < INR calls)%R by (apply lt_0_INR, Hc).
  rewrite H. field. split; lra.
Qed.
Lemma bars_right to_num delta d L B x0 step init time calls e mh tt ee rt re vt ve :
  ess_report L (1 / 2) B x0 step init time calls = (e, mh, tt, ee) -> Nat.Even L -> 0 < L -> 0 < calls -> tells_length to_num d L ->
  shows_pair to_num delta ee re ve -> shows_pair to_num delta tt rt vt ->
  exists x s w u, ess_results to_num d [(metric_text true re, metric_text true rt)] = Some [("ess_ee", x); ("ess_ee_std", s); ("ess_clock", w); ("ess_clock_std", u)] /\
    near delta (per_step_calls (fst e) calls L) x /\ near delta (per_step_calls (snd e) calls L) s /\ near delta (fst e / time) w /\ near delta (snd e / time) u.
Proof.
  intros Hr He HL Hc Ht Se St. do 4 eexists. split; [apply (results_parallel to_num d L rt re vt ve tt ee delta Ht Se St)|].
  unfold ess_report in Hr. cbv zeta in Hr. set (e0 := get_ess _ _) in Hr. injection Hr as <- <- <- <-. destruct Se as (a & b & _ & _ & _ & N1 & N2). destruct St as (a' & b' & _ & _ & _ & N3 & N4). cbn [fst snd] in *.
  rewrite <- !(scaled _ calls L He HL Hc). repeat split; try assumption; apply near_scale; try assumption; apply pos_INR.
Qed.
Lemma factor_right E calls L ratio k : (E <> 0)%R -> 0 < calls -> 0 < L -> (0 < ratio)%R ->
  (ess_per_call E calls ratio * k = per_step_calls E calls L)%R <-> (k = INR L * ratio)%R.
Proof.
  intros HE Hc HL Hr. unfold ess_per_call, per_step_calls. assert (PL : (0 < INR L)%R) by (apply lt_0_INR, HL). assert (Pc : (0 < INR calls)%R) by (apply lt_0_INR, Hc). split.
  - intros H. apply (Rmult_eq_reg_l (E / (INR calls * ratio))). 2: { unfold Rdiv. apply Rmult_integral_contrapositive. split; [exact HE|]. apply Rinv_neq_0_compat. assert (0 < INR calls * ratio)%R by (apply Rmult_lt_0_compat; assumption). lra. }
    rewrite H. field. repeat split; lra.
  - intros ->. field. repeat split; lra.
Qed.

(** ** The shipped sweeps *)
Definition ess_job_ok (x : table lit * (table lit * string)) : bool :=
  match configure py_repr shipped_modules (shipped_files "/workdir/") (fst x), get_experiment_config (snd (snd x)) with
  | Some c, Some d0 =>
      match process_keys d0, look "chain_length" (l_exp c), look "ess_ratio" (l_exp c), look "run_parallel" (l_exp c) with
      | Some d, Some (LInt L), Some (LFloat 5 1), Some (LBool true) =>
          (Z.ltb 0 L && Z.even L && match look "chain_length" (del "save_samples" d) with Some t => String.eqb t (dec_Z L) | None => Z.eqb L 100000 end)%bool
      | _, _, _, _ => false
      end
  | _, _ => false
  end.
Definition ess_sweep_ok (root : string) (x : string * job_config) : bool :=
  (negb (String.eqb (snd (kind (snd x))) "ess_eval") ||
   ((1 <? gpus (snd x))%nat && match launch py_repr (snd x) [] root, sweep_folders (snd x) with
     | Some jobs, Some l => (Nat.eqb (List.length jobs) (List.length l) && forallb ess_job_ok (combine jobs l))%bool
     | _, _ => false end))%bool.
Lemma ess_sweeps root : forallb (ess_sweep_ok root) shipped_sweeps = true.
Proof. vm_compute. reflexivity. Qed.
(** What the report knows of the length of a job's chain. *)
Definition length_known (a : table lit) (f : string) : Prop :=
  exists c d0 d L, configure py_repr shipped_modules (shipped_files "/workdir/") a = Some c /\ get_experiment_config f = Some d0 /\ process_keys d0 = Some d /\
    look "chain_length" (l_exp c) = Some (LInt L) /\ (0 < L)%Z /\ Z.Even L /\ look "ess_ratio" (l_exp c) = Some (LFloat 5 1) /\ look "run_parallel" (l_exp c) = Some (LBool true) /\
    match look "chain_length" (del "save_samples" d) with Some t => t = dec_Z L | None => L = 100000%Z end.
Lemma ess_job_sound a kf : ess_job_ok (a, kf) = true -> length_known a (snd kf).
Proof.
  unfold ess_job_ok, length_known. cbn [fst snd]. destruct (configure _ _ _ a) as [c|]; [|discriminate]. destruct (get_experiment_config (snd kf)) as [d0|]; [|discriminate]. destruct (process_keys d0) as [d|] eqn:EP; [|discriminate].
  destruct (look "chain_length" (l_exp c)) as [[|L| | |]|] eqn:EL; try discriminate.
  destruct (look "ess_ratio" (l_exp c)) as [[| |z q| |]|] eqn:EE; try discriminate. destruct z as [|z|]; try discriminate. do 3 (destruct z as [z|z|]; try discriminate). destruct q as [|[|q]]; try discriminate.
  destruct (look "run_parallel" (l_exp c)) as [[| | |[]|]|] eqn:ER; try discriminate. intros H. exists c, d0, d, L. apply andb_prop in H. destruct H as (H & H3). apply andb_prop in H. destruct H as (H1 & H2). apply Z.ltb_lt in H1. apply Z.even_spec in H2.
  do 8 (split; [first [reflexivity | assumption]|]). destruct (look "chain_length" (del "save_samples" d)); [apply String.eqb_eq, H3|apply Z.eqb_eq, H3].
Qed.
Lemma ess_shipped nm j root jobs fs : In (nm, j) shipped_sweeps -> snd (kind j) = "ess_eval" -> launch py_repr j [] root = Some jobs -> job_folders root jobs fs ->
  1 < gpus j /\ Forall2 length_known jobs fs.
Proof.
  intros Hj Hk HL HF. pose proof shipped_keys as SK. rewrite forallb_forall in SK. specialize (SK _ Hj). pose proof (ess_sweeps root) as K. rewrite forallb_forall in K. specialize (K _ Hj). cbn [snd] in SK. unfold ess_sweep_ok in K. cbn [snd] in K.
  assert (De : ConfigSpec.dict (V := lit) []) by constructor. destruct (folders_launch j [] root jobs fs SK De HL HF) as (l & El & -> & _).
  rewrite Hk, HL, El in K. cbn [String.eqb Ascii.eqb Bool.eqb negb orb] in K. apply andb_prop in K. destruct K as (K1 & K2). apply Nat.ltb_lt in K1. split; [exact K1|].
  apply andb_prop in K2. destruct K2 as (K2 & K3). apply Nat.eqb_eq in K2. clear - K2 K3. revert l K2 K3. induction jobs as [|a jobs IH]; intros [|kf l] E F; try discriminate; [constructor|].
  cbn [combine forallb] in F. apply andb_prop in F. destruct F as (F1 & F2). cbn [map]. constructor; [apply (ess_job_sound a kf F1)|apply IH; [cbn in E; lia|exact F2]].
Qed.
