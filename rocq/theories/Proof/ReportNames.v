(** The name of a sampler in a report. *)
From Coq Require Import String Ascii List Bool ZArith Arith Lia.
From Verif.Spec Require Import ConfigSpec LaunchSpec ReportSpec.
From Verif.Model Require Import Utils Launch Report.
From Verif.Proof Require Import UtilsProof LaunchProof ReportText.
Import ListNotations.
Local Open Scope string_scope.

Lemma look_del {V} k k' (d : table V) : look k (del k' d) = if String.eqb k k' then None else look k d.
Proof.
  unfold del. induction d as [|[a v] d IH]; cbn [filter look fst]; [destruct (String.eqb k k'); reflexivity|].
  destruct (String.eqb_spec a k') as [->|N]; cbn [negb].
  - rewrite IH. destruct (String.eqb_spec k k'); reflexivity.
  - cbn [look]. rewrite IH. destruct (String.eqb_spec k a) as [->|]; [|reflexivity]. destruct (String.eqb_spec a k'); [contradiction|reflexivity].
Qed.
Lemma look_name_add k s d : look k (name_add s d) = if String.eqb k "name" then option_map (fun n => n ++ s) (look "name" d) else look k d.
Proof.
  unfold name_add. destruct (look "name" d) as [n|] eqn:E.
  - rewrite look_put. destruct (String.eqb k "name"); reflexivity.
  - destruct (String.eqb_spec k "name") as [->|]; [rewrite E|]; reflexivity.
Qed.
(** A dictionary [d'] that is [d] with the name extended by [s] and without the key [k]. *)
Definition step (d d' : table string) (s k : string) : Prop :=
  look "name" d' = option_map (fun n => n ++ s) (look "name" d) /\ look k d' = None /\ forall x, x <> "name" -> x <> k -> look x d' = look x d.
Lemma name_setting_step key glue d : key <> "name" -> step d (name_setting key glue d) (or_empty (option_map (append glue) (look key d))) key.
Proof.
  intros N. unfold name_setting, step. destruct (look key d) as [v|] eqn:E; cbn [option_map or_empty].
  - split; [|split].
    + rewrite look_del. destruct (String.eqb_spec "name" key); [congruence|]. rewrite look_name_add. reflexivity.
    + rewrite look_del, String.eqb_refl. reflexivity.
    + intros x Hx Hk. rewrite look_del, look_name_add. destruct (String.eqb_spec x key); [contradiction|]. destruct (String.eqb_spec x "name"); [contradiction|reflexivity].
  - split; [|split]; [|exact E|reflexivity]. destruct (look "name" d) as [nn|]; cbn [option_map]; [rewrite app_nil_s|]; reflexivity.
Qed.
Lemma name_if_step d (b : bool) s key : key <> "name" -> step d (del key (if b then name_add s d else d)) (if b then s else "") key.
Proof.
  intros N. unfold step. split; [|split].
  - rewrite look_del. destruct (String.eqb_spec "name" key); [congruence|]. destruct b; [rewrite look_name_add; reflexivity|]. destruct (look "name" d) as [nn|]; cbn [option_map]; [rewrite app_nil_s|]; reflexivity.
  - rewrite look_del, String.eqb_refl. reflexivity.
  - intros x Hx Hk. rewrite look_del. destruct (String.eqb_spec x key); [contradiction|]. destruct b; [|reflexivity]. rewrite look_name_add. destruct (String.eqb_spec x "name"); [contradiction|reflexivity].
Qed.
Lemma none_step d s key : look key d = None -> s = "" -> step d d s key.
Proof. intros H ->. split; [|split]; [|exact H|reflexivity]. destruct (look "name" d) as [nn|]; cbn [option_map]; [rewrite app_nil_s|]; reflexivity. Qed.
Lemma solver_step d : step d (name_solver d) (if String.eqb (or_empty (look "solver" d)) "euler_forward" then "f" else "") "solver".
Proof.
  unfold name_solver. destruct (look "solver" d) as [s|] eqn:E; cbn [or_empty]; [apply name_if_step; discriminate|]. apply none_step; auto.
Qed.
Lemma balancing_step d : step d (name_balancing d) (match look "balancing_fn_type" d with Some b => fn_suffix b | None => "" end) "balancing_fn_type".
Proof.
  unfold name_balancing. destruct (look "balancing_fn_type" d) as [b|] eqn:E; [|apply none_step; auto].
  apply (name_if_step d true (fn_suffix b) "balancing_fn_type"). discriminate.
Qed.
Definition named_text (d : table string) : string :=
  base_name (or_empty (look "name" d))
  ++ (if String.eqb (or_empty (look "solver" d)) "euler_forward" then "f" else "")
  ++ (match look "adaptive" d with
      | Some a => (if String.eqb a "False" then "-nA" else "") ++ or_empty (look "step_size" d)
                  ++ or_empty (option_map (append "-") (look "n" d)) ++ or_empty (option_map (append "-") (look "num_flips" d))
      | None => ""
      end)
  ++ (match look "balancing_fn_type" d with Some b => fn_suffix b | None => "" end).
Lemma processed_named d d' : process_keys d = Some d' ->
  look "name" d <> None /\ look "name" d' = Some (named_text d) /\
  (forall k, into_name d k -> look k d' = None) /\ (forall k, k <> "name" -> ~ into_name d k -> look k d' = look k d).
Proof.
  unfold process_keys. destruct (look "name" d) as [n|] eqn:En; [|discriminate]. intros H. apply (f_equal (fun o => match o with Some x => x | None => [] end)) in H. cbn iota beta in H. rename H into E. split; [discriminate|].
  set (d0 := put "name" (base_name n) d) in *.
  assert (L0 : forall k, look k d0 = if String.eqb k "name" then Some (base_name n) else look k d) by (intros k; apply look_put).
  set (d1 := name_solver d0) in *. destruct (solver_step d0) as (A1 & B1 & C1). fold d1 in A1, B1, C1.
  set (d2 := del "approx_with_grad" d1) in *.
  assert (L2 : forall k, look k d2 = if String.eqb k "approx_with_grad" then None else look k d1) by (intros k; apply look_del).
  set (d3 := name_adaptive d2) in *. destruct (balancing_step d3) as (A4 & B4 & C4). rewrite E in A4, B4, C4.
  assert (S0 : look "solver" d0 = look "solver" d) by apply L0.
  assert (H2 : forall k, k <> "name" -> k <> "solver" -> k <> "approx_with_grad" -> look k d2 = look k d).
  { intros k K1 K2 K3. rewrite L2. destruct (String.eqb_spec k "approx_with_grad"); [contradiction|]. rewrite C1 by assumption. rewrite L0. destruct (String.eqb_spec k "name"); [contradiction|reflexivity]. }
  assert (N2 : look "name" d2 = Some (base_name n ++ (if String.eqb (or_empty (look "solver" d)) "euler_forward" then "f" else ""))).
  { rewrite L2. change (String.eqb "name" "approx_with_grad") with false. cbv iota. rewrite A1, S0, L0. reflexivity. }
  assert (H3 : look "name" d3 = option_map (fun x => x ++ match look "adaptive" d with
      | Some a => (if String.eqb a "False" then "-nA" else "") ++ or_empty (look "step_size" d) ++ or_empty (option_map (append "-") (look "n" d)) ++ or_empty (option_map (append "-") (look "num_flips" d))
      | None => "" end) (look "name" d2) /\
    look "adaptive" d3 = None /\ (look "adaptive" d <> None -> look "step_size" d3 = None /\ look "n" d3 = None /\ look "num_flips" d3 = None) /\
    (forall k, k <> "name" -> k <> "adaptive" -> (In k ["step_size"; "n"; "num_flips"] -> look "adaptive" d = None) -> look k d3 = look k d2)).
  { unfold d3, name_adaptive. rewrite (H2 "adaptive") by discriminate. destruct (look "adaptive" d) as [a|] eqn:Ea.
    - set (e0 := del "adaptive" (if String.eqb a "False" then name_add "-nA" d2 else d2)). destruct (name_if_step d2 (String.eqb a "False") "-nA" "adaptive" ltac:(discriminate)) as (X0 & Y0 & Z0). fold e0 in X0, Y0, Z0.
      set (e1 := name_setting "step_size" "" e0). destruct (name_setting_step "step_size" "" e0 ltac:(discriminate)) as (X1 & Y1 & Z1). fold e1 in X1, Y1, Z1.
      set (e2 := name_setting "n" "-" e1). destruct (name_setting_step "n" "-" e1 ltac:(discriminate)) as (X2 & Y2 & Z2). fold e2 in X2, Y2, Z2.
      set (e3 := name_setting "num_flips" "-" e2). destruct (name_setting_step "num_flips" "-" e2 ltac:(discriminate)) as (X3 & Y3 & Z3). fold e3 in X3, Y3, Z3.
      assert (Es : look "step_size" e0 = look "step_size" d) by (rewrite Z0 by discriminate; apply H2; discriminate).
      assert (E1 : look "n" e1 = look "n" d) by (rewrite Z1 by discriminate; rewrite Z0 by discriminate; apply H2; discriminate).
      assert (E2 : look "num_flips" e2 = look "num_flips" d) by (rewrite Z2 by discriminate; rewrite Z1 by discriminate; rewrite Z0 by discriminate; apply H2; discriminate).
      split; [|split; [|split]].
      + rewrite X3, X2, X1, X0, Es, E1, E2, N2. cbn [option_map]. f_equal. rewrite !app_assoc_s. destruct (look "step_size" d); reflexivity.
      + rewrite Z3, Z2, Z1 by discriminate. exact Y0.
      + intros _. split; [|split]; [rewrite Z3, Z2 by discriminate; exact Y1|rewrite Z3 by discriminate; exact Y2|exact Y3].
      + intros k K1 K2 K3. assert (K : ~ In k ["step_size"; "n"; "num_flips"]) by (intros K; apply K3 in K; discriminate). cbn in K. rewrite Z3, Z2, Z1, Z0 by intuition congruence. reflexivity.
    - split; [|split; [|split]]; [rewrite N2; cbn [option_map]; rewrite app_nil_s; reflexivity|rewrite H2 by discriminate; exact Ea|intros K; congruence|reflexivity]. }
  destruct H3 as (X3 & Y3 & Z3 & W3).
  assert (B3 : look "balancing_fn_type" d3 = look "balancing_fn_type" d) by (rewrite W3 by (try discriminate; cbn; intuition discriminate); apply H2; discriminate).
  split; [|split].
  - rewrite A4, X3, N2, B3. cbn [option_map]. unfold named_text. rewrite En. cbn [or_empty]. rewrite !app_assoc_s. reflexivity.
  - intros k K. destruct (String.eqb_spec k "balancing_fn_type") as [->|Nb]; [exact B4|]. assert (Nn : k <> "name").
    { intros ->. destruct K as [K|[K _]]; cbn in K; intuition discriminate. }
    rewrite C4 by assumption. destruct (String.eqb_spec k "adaptive") as [->|Na]; [exact Y3|]. destruct K as [K|[K Ka]].
    + cbn in K. rewrite W3 by (try assumption; intros J; cbn in J; intuition congruence). rewrite L2. destruct K as [<-|[<-|[<-|[<-|[]]]]]; try contradiction; [|reflexivity].
      change (String.eqb "solver" "approx_with_grad") with false. exact B1.
    + destruct (Z3 Ka) as (Z31 & Z32 & Z33). destruct K as [<-|[<-|[<-|[]]]]; assumption.
  - intros k Nn K. assert (K' : ~ In k ["solver"; "approx_with_grad"; "adaptive"; "balancing_fn_type"]) by (intros J; apply K; left; exact J). cbn in K'.
    rewrite C4 by intuition congruence. rewrite W3; [apply H2; intuition congruence|exact Nn|intuition congruence|].
    intros J. destruct (look "adaptive" d) eqn:Ea; [|reflexivity]. exfalso. apply K. right. split; [exact J|congruence].
Qed.
Lemma base_short n : base_name n = short_sampler n.
Proof. unfold base_name, short_sampler. cbn [look]. destruct (String.eqb n "hammingball"); [reflexivity|]. destruct (String.eqb n "blockgibbs"); [reflexivity|]. destruct (String.eqb n "randomwalk"); [reflexivity|]. destruct (String.eqb n "path_auxiliary"); reflexivity. Qed.
Lemma suffix_text b : fn_suffix b = lbf_text b.
Proof. unfold fn_suffix, lbf_text. cbn [look]. destruct (String.eqb b "SQRT"); [reflexivity|]. destruct (String.eqb b "RATIO"); [reflexivity|]. destruct (String.eqb b "MIN"); [reflexivity|]. destruct (String.eqb b "MAX"); reflexivity. Qed.
Lemma named_sampler d : named_text d = sampler_text d.
Proof. unfold named_text, sampler_text. rewrite base_short. destruct (look "balancing_fn_type" d); [rewrite suffix_text|]; reflexivity. Qed.
Lemma processed d d' : process_keys d = Some d' ->
  look "name" d <> None /\ look "name" d' = Some (sampler_text d) /\
  (forall k, into_name d k -> look k d' = None) /\ (forall k, k <> "name" -> ~ into_name d k -> look k d' = look k d).
Proof. rewrite <- named_sampler. apply processed_named. Qed.
Lemma process_none d : process_keys d = None <-> look "name" d = None.
Proof. unfold process_keys. destruct (look "name" d); split; intros; try discriminate; reflexivity. Qed.
