(** Effective sample size against temperature. *)
From Coq Require Import Reals String Ascii List Bool ZArith Arith Lia Lra Permutation.
From Verif.Model Require Import Utils Tools Launch Report EssReport CutReport TempReport RunConfigs.
From Verif.Spec Require Import ConfigSpec LaunchSpec ReportSpec EssReportSpec TempSpec.
From Verif.Proof Require Import ReportShipped EssReportProof TempProof.
Import ListNotations.
Local Open Scope string_scope.

(** * C108: the temperature figure shows every run of the shipped temperature sweeps at its temperature *)
(** Two numbers printed without padding in front are read back. *)
Theorem C108_read to_num a p b r : solid a -> solid b -> spaces p -> spaces r ->
  temp_pair to_num (metric_text true (a ++ " " ++ p ++ b ++ r)) = match to_num a, to_num b with Some u, Some v => Some (u, v) | _, _ => None end.
Proof. exact (temp_read to_num a p b r). Qed.
Example C108_read_case : solid "12.5" /\ solid "0.25" /\ spaces " " /\ metric_text true ("12.5" ++ " " ++ " " ++ "0.25" ++ "") = "[[12.5  0.25]]".
Proof.
  split; [|split; [|split; [intros c [<-|[]]; reflexivity|reflexivity]]]; (split; [discriminate|]); intros c Hc K; cbn in Hc, K; decompose [or] Hc; try contradiction; subst c; decompose [or] K; try contradiction; discriminate.
Qed.
(** What is loaded for a run with one row of results: what the other report loads, but a tenth of the first deviation. *)
Theorem C108_results to_num d t1 t2 e c k : temp_pair to_num t1 = Some e -> temp_pair to_num t2 = Some c -> ess_scale to_num d = Some k ->
  temp_results to_num d (Some [(t1, t2)]) = Some [("ess_ee", fst e * k); ("ess_ee_std", snd e * k / 10); ("ess_clock", fst c); ("ess_clock_std", snd c)]%R /\
  (extract_floats to_num t1 = Some e -> extract_floats to_num t2 = Some c ->
   ess_results to_num d [(t1, t2)] = Some [("ess_ee", fst e * k); ("ess_ee_std", snd e * k); ("ess_clock", fst c); ("ess_clock_std", snd c)]%R).
Proof. exact (temp_loaded to_num d t1 t2 e c k). Qed.
Example C108_results_case : temp_pair decimal "[[12.5 0.25]]" = Some (12 + 5 / 10 ^ 1, 0 + 25 / 10 ^ 2)%R /\ extract_floats decimal "[[12.5 0.25]]" = Some (12 + 5 / 10 ^ 1, 0 + 25 / 10 ^ 2)%R /\
  temp_pair decimal "[[3.5 0.5]]" = Some (3 + 5 / 10 ^ 1, 0 + 5 / 10 ^ 1)%R /\ ess_scale decimal [("name", "gwg")] = Some 50000%R.
Proof. repeat split; reflexivity. Qed.
(** The lines: per sampler of the first temperature one line through all temperatures in turn, each point at the last setting of the title. *)
Theorem C108_figure X (sh : sheet X) shs t ts : fst t = "0.1607" ->
  Forall2 (fun sh' (t' : string * (string -> string -> X)) => ends_with (fst t') (sh_title sh') /\
    forall n, In n (map fst (sh_rows sh)) -> exists row, look n (sh_rows sh') = Some row /\ begins row (snd t' n)) (sh :: shs) (t :: ts) ->
  temp_prepare X (sh :: shs) = Some (map (fun nr => (fst nr, map (fun t' => (fst t', quad (snd t' (fst nr)))) (t :: ts))) (sh_rows sh)).
Proof. exact (temp_figure X sh shs t ts). Qed.
Example C108_figure_case : exists (sh sh' : sheet nat) t t', fst t = "0.1607" /\ fst t' = "0.3" /\ List.length (sh_rows sh) = 2%nat /\
  Forall2 (fun sh' (t' : string * (string -> string -> nat)) => ends_with (fst t') (sh_title sh') /\
    forall n, In n (map fst (sh_rows sh)) -> exists row, look n (sh_rows sh') = Some row /\ begins row (snd t' n)) [sh; sh'] [t; t'] /\
  temp_prepare nat [sh; sh'] = Some [("gwg", [("0.1607", quad (snd t "gwg")); ("0.3", quad (snd t' "gwg"))]); ("dmala", [("0.1607", quad (snd t "dmala")); ("0.3", quad (snd t' "dmala"))])].
Proof.
  pose (row := fun i : nat => map (fun k => (k, [i])) result_keys).
  exists {| sh_title := "name=gwg,lambdaa=0.1607,"; sh_rows := [("gwg", row 1); ("dmala", row 2)] |}, {| sh_title := "name=dmala,lambdaa=0.3,"; sh_rows := [("dmala", row 4); ("gwg", row 3)] |},
    ("0.1607", fun n _ => if String.eqb n "gwg" then 1%nat else 2%nat), ("0.3", fun n _ => if String.eqb n "gwg" then 3%nat else 4%nat).
  split; [reflexivity|]. split; [reflexivity|]. split; [reflexivity|]. split; [|reflexivity].
  assert (B : forall i (r : string -> nat), (forall k, r k = i) -> begins (row i) r) by (intros i r Hr k Hk; exists []; rewrite Hr; cbn in Hk; decompose [or] Hk; try contradiction; subst k; reflexivity).
  assert (E : forall n v, In n ["gwg"; "dmala"] -> In v ["0.1607"; "0.3"] -> ends_with v (title [("name", n); ("lambdaa", v)])).
  { intros n v Hn Hv. exists [("name", n)], "lambdaa". split; [reflexivity|]. cbn in Hn, Hv.
    decompose [or] Hn; decompose [or] Hv; try contradiction; subst n v; (split; [|split; [|intros k' v' [Q|[Q|[]]]; injection Q as <- <-; split]]); intros K; cbn in K; decompose [or] K; try contradiction; discriminate. }
  constructor; [|constructor; [|constructor]]; cbn [fst snd sh_title sh_rows map].
  - split; [exact (E "gwg" "0.1607" ltac:(cbn; tauto) ltac:(cbn; tauto))|]. intros n [<-|[<-|[]]]; eexists; (split; [reflexivity|]); apply B; intros k; reflexivity.
  - split; [exact (E "dmala" "0.3" ltac:(cbn; tauto) ltac:(cbn; tauto))|]. intros n [<-|[<-|[]]]; eexists; (split; [reflexivity|]); apply B; intros k; reflexivity.
Qed.
(** A run that is not there at one temperature, or whose results were not saved: no figure at all. *)
Theorem C108_missing X (sh : sheet X) shs sh' n : In n (map fst (sh_rows sh)) -> In sh' (sh :: shs) ->
  (forall row, look n (sh_rows sh') = Some row -> exists k, In k result_keys /\ look k row = None) -> temp_prepare X (sh :: shs) = None.
Proof. exact (temp_missing X sh shs sh' n). Qed.
Example C108_missing_case : exists (sh sh' : sheet R) n, In n (map fst (sh_rows sh)) /\ look n (sh_rows sh') <> None /\
  (forall row, look n (sh_rows sh') = Some row -> exists k, In k result_keys /\ look k row = None) /\ temp_results decimal [("name", "gwg")] None = Some [("ess_ee", 0%R); ("ess_clock", 0%R)].
Proof.
  exists {| sh_title := ""; sh_rows := [("gwg", map (fun k => (k, [1%R])) result_keys)] |}, {| sh_title := ""; sh_rows := [("gwg", [("ess_ee", [0%R]); ("ess_clock", [0%R])])] |}, "gwg".
  split; [left; reflexivity|]. split; [discriminate|]. split; [|reflexivity]. intros row E. injection E as <-. exists "ess_ee_std". split; [cbn; tauto|reflexivity].
Qed.
(** The two shipped temperature sweeps, listed in any order: every run is shown exactly once, on the line of its sampler and at its temperature; each line goes through the
    sixteen temperatures from 0.1607 to 0.7607 in steps of 0.04. *)
Theorem C108_shipped nm j extra root jobs fs listing X (g : string -> string -> X) :
  In (nm, j) shipped_sweeps -> In nm ["classical_models/ising/lamdasweep_bigger"; "classical_models/ising/lamdasweep_small"] -> ConfigSpec.dict extra -> launch py_repr j extra root = Some jobs -> job_folders root jobs fs -> Permutation listing fs ->
  exists lines runs, temp_lines X millionths (fun f => Some (four (g f))) listing = Some lines /\ NoDup (map fst lines) /\ Permutation (List.concat runs) fs /\
    Forall2 (fun l r => is_line g (fst l) r (snd l) /\ map (fun p => millionths (fst p)) (snd l) = map (fun i => Some (160700 + 40000 * Z.of_nat i)%Z) (seq 0 16)) lines runs.
Proof. exact (temp_shipped nm j extra root jobs fs listing X g). Qed.
Example C108_shipped_case : exists jobs fs, In ("classical_models/ising/lamdasweep_bigger", ising_lamdasweep_bigger) shipped_sweeps /\ ConfigSpec.dict (V := lit) [] /\
  launch py_repr ising_lamdasweep_bigger [] "/results" = Some jobs /\ job_folders "/results" jobs fs /\ List.length fs = 208%nat.
Proof.
  exists (match launch py_repr ising_lamdasweep_bigger [] "/results" with Some l => l | None => [] end), (match sweep_folders ising_lamdasweep_bigger with Some l => map snd l | None => [] end).
  split; [apply (nth_error_In _ 13); reflexivity|]. split; [constructor|]. split; [vm_compute; reflexivity|]. split; [apply check_folders_sound; vm_compute; reflexivity|vm_compute; reflexivity].
Qed.
(** "The figure is drawn whatever the run found" is false: numpy pads the narrower of two numbers in front, and then the tool stops where the other report reads them. *)
Theorem C108_padding_refuted : exists row a b u v, two_numbers row a b /\ decimal a = Some u /\ decimal b = Some v /\
  extract_floats decimal (metric_text true row) = Some (u, v) /\ temp_pair decimal (metric_text true row) = None.
Proof.
  exists " 7.5  12.25", "7.5", "12.25", (7 + 5 / 10 ^ 1)%R, (12 + 25 / 10 ^ 2)%R. split; [|repeat split; reflexivity].
  split; [|split; [|exists " ", " ", ""; repeat split; intros c Hc; cbn in Hc; decompose [or] Hc; try contradiction; subst c; reflexivity]]; (split; [discriminate|]); intros c Hc K; cbn in Hc, K; decompose [or] Hc; try contradiction; subst c; decompose [or] K; try contradiction; discriminate.
Qed.
(** "The band has the width of the deviation that was saved" is false of the effective sample size per evaluation. *)
Theorem C108_band_refuted : exists d text r r', temp_results decimal d (Some [(text, text)]) = Some r /\ ess_results decimal d [(text, text)] = Some r' /\
  look "ess_ee" r = look "ess_ee" r' /\ exists x y, look "ess_ee_std" r = Some x /\ look "ess_ee_std" r' = Some y /\ (x <> y)%R /\ (10 * x = y)%R.
Proof.
  destruct (temp_loaded decimal [("name", "gwg")] "[[12.5 0.25]]" "[[12.5 0.25]]" (12 + 5 / 10 ^ 1, 0 + 25 / 10 ^ 2)%R (12 + 5 / 10 ^ 1, 0 + 25 / 10 ^ 2)%R 50000%R eq_refl eq_refl eq_refl) as (A & B).
  exists [("name", "gwg")], "[[12.5 0.25]]". eexists. eexists. split; [exact A|]. split; [exact (B eq_refl eq_refl)|]. split; [reflexivity|]. eexists. eexists. split; [reflexivity|]. split; [reflexivity|]. cbn [fst snd]. split; lra.
Qed.
(** "... of any sweep" is false: the first temperature is always shown as 0.1607, ... *)
Theorem C108_first_refuted : exists listing lines, temp_lines nat millionths (fun f => Some (four (fun _ => String.length f))) listing = Some lines /\
  (forall f, In f listing -> exists d, cut_settings f = Some d /\ In (look "lambdaa" d) [Some "0.3"; Some "0.5"]) /\ map (fun l => map fst (snd l)) lines = [["0.1607"; "0.5"]].
Proof.
  exists ["1_name='gwg',lambdaa=0.3"; "2_name='gwg',lambdaa=0.5"]. eexists. split; [vm_compute; reflexivity|]. split; [|reflexivity]. intros f [<-|[<-|[]]]; eexists; (split; [vm_compute; reflexivity|]); cbn; tauto.
Qed.
(** ... and the others at whatever setting comes last. *)
Theorem C108_last_refuted : exists listing lines, temp_lines nat millionths (fun f => Some (four (fun _ => String.length f))) listing = Some lines /\
  (forall f, In f listing -> exists d, cut_settings f = Some d /\ In (look "lambdaa" d) [Some "0.1607"; Some "0.5"]) /\ map (fun l => map fst (snd l)) lines = [["0.1607"; "0.25"]].
Proof.
  exists ["1_name='gwg',lambdaa=0.1607,mu=0.25"; "2_name='gwg',lambdaa=0.5,mu=0.25"]. eexists. split; [vm_compute; reflexivity|]. split; [|reflexivity]. intros f [<-|[<-|[]]]; eexists; (split; [vm_compute; reflexivity|]); cbn; tauto.
Qed.
(** "An unfinished run is left out" is false: one missing file of the shipped sweep and there is no figure. *)
Theorem C108_unfinished_refuted : exists jobs fs f, launch py_repr ising_lamdasweep_bigger [] "/results" = Some jobs /\ job_folders "/results" jobs fs /\ In f fs /\
  forall X (zero : X) (g : string -> string -> X),
    temp_lines X millionths (fun f' => Some (if String.eqb f' f then [("ess_ee", zero); ("ess_clock", zero)] else four (g f'))) fs = None.
Proof.
  exists (match launch py_repr ising_lamdasweep_bigger [] "/results" with Some l => l | None => [] end), (sweep_names ising_lamdasweep_bigger), (nth 100 (sweep_names ising_lamdasweep_bigger) "").
  split; [vm_compute; reflexivity|]. split; [apply check_folders_sound; vm_compute; reflexivity|]. split; [apply nth_In; vm_compute; lia|]. intros X zero g. vm_compute. reflexivity.
Qed.

Print Assumptions C108_read.
Print Assumptions C108_results.
Print Assumptions C108_figure.
Print Assumptions C108_missing.
Print Assumptions C108_shipped.
Print Assumptions C108_padding_refuted.
Print Assumptions C108_band_refuted.
Print Assumptions C108_first_refuted.
Print Assumptions C108_last_refuted.
Print Assumptions C108_unfinished_refuted.
