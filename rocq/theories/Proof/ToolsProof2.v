(** Proofs about the cluster and normalised-cut tools (Model/Tools.v). *)
From Coq Require Import String Reals List Arith Bool Lia Lra Permutation.
From Verif.Base Require Import RSum.
From Verif.Spec Require Import ToolSpec GraphSpec.
From Verif.Model Require Import Tools.
From Verif.Proof Require Import ToolsProof.
Import ListNotations.
Local Open Scope nat_scope.

(** ** Clusters *)
Section Clusters.
Variable V : Type.
Variable veq : V -> V -> bool.
Variable key : string.
Variable ds : list (dict V).
Let r (i j : nat) : bool := get_diff_key veq key (nth i ds []) (nth j ds []).

Lemma add_to_some i cs : forall cs', add_to veq key ds (nth i ds []) i cs = Some cs' ->
  exists pre c post, cs = pre ++ c :: post /\ Forall (fun c' => r (hd 0 c') i = false) pre /\ r (hd 0 c) i = true /\ cs' = pre ++ (c ++ [i]) :: post.
Proof.
  induction cs as [|c cs IH]; cbn [add_to]; intros cs' H; [discriminate|].
  destruct (get_diff_key veq key (nth (hd 0 c) ds []) (nth i ds [])) eqn:E.
  - injection H as <-. exists [], c, cs. repeat split; auto.
  - destruct (add_to veq key ds (nth i ds []) i cs) as [cs1|]; [|discriminate]. injection H as <-.
    destruct (IH cs1 eq_refl) as (pre & c0 & post & -> & Hp & Hc & ->). exists (c :: pre), c0, post. repeat split; auto.
Qed.
Lemma add_to_none i cs : add_to veq key ds (nth i ds []) i cs = None -> Forall (fun c' => r (hd 0 c') i = false) cs.
Proof.
  induction cs as [|c cs IH]; cbn [add_to]; intros H; [constructor|].
  destruct (get_diff_key veq key (nth (hd 0 c) ds []) (nth i ds [])) eqn:E; [discriminate|].
  destruct (add_to veq key ds (nth i ds []) i cs) as [cs1|]; [discriminate|]. constructor; auto.
Qed.

Definition inv (cs : list (list nat)) (is : list nat) : Prop :=
  Permutation (concat cs) is
  /\ Forall (fun c => c <> [] /\ forall j, In j (tl c) -> r (hd 0 c) j = true) cs
  /\ ForallOrdPairs (fun c' c => forall j, In j c -> r (hd 0 c') j = false) cs.

Lemma fop_app {A} (R : A -> A -> Prop) l1 : forall l2, ForallOrdPairs R (l1 ++ l2) <-> ForallOrdPairs R l1 /\ ForallOrdPairs R l2 /\ forall a b, In a l1 -> In b l2 -> R a b.
Proof.
  induction l1 as [|a l1 IH]; intros l2; cbn [app].
  - split; [intros H; repeat split; auto; [constructor|intros ? ? []]|tauto].
  - split.
    + intros H. inversion H as [|? ? Ha Hl]; subst. apply IH in Hl. destruct Hl as (H1 & H2 & H3). rewrite Forall_forall in Ha. repeat split; auto.
      * constructor; auto. apply Forall_forall. intros x Hx. apply Ha, in_or_app; auto.
      * intros x y [<-|Hx] Hy; [apply Ha, in_or_app; auto|auto].
    + intros (H1 & H2 & H3). inversion H1 as [|? ? Ha Hl]; subst. constructor.
      * apply Forall_forall. intros x Hx. apply in_app_or in Hx. rewrite Forall_forall in Ha. destruct Hx; [auto|apply H3; [left|]; auto].
      * apply IH. repeat split; auto. intros x y Hx Hy. apply H3; [right|]; auto.
Qed.

Lemma step_inv cs is i : inv cs is -> inv (cluster_step veq key ds cs i) (is ++ (if has key (nth i ds []) then [i] else [])).
Proof.
  intros (HP & HF & HO). unfold cluster_step. destruct (has key (nth i ds [])) eqn:K; cbn [negb]; [|rewrite app_nil_r; repeat split; auto].
  assert (New : (forall c', In c' cs -> r (hd 0 c') i = false) -> inv (cs ++ [[i]]) (is ++ [i])).
  { intros Hf. repeat split.
    - rewrite concat_app. cbn. apply Permutation_app; auto.
    - apply Forall_app. split; auto. repeat constructor; [discriminate|intros j []].
    - apply fop_app. repeat split; auto; [repeat constructor|]. intros a b Ha [<-|[]] j [<-|[]]. auto. }
  destruct cs as [|c0 cs0] eqn:Ecs; [apply New; intros ? []|]. rewrite <- Ecs in *. clear Ecs c0 cs0.
  destruct (add_to veq key ds (nth i ds []) i cs) as [cs'|] eqn:A.
  - destruct (add_to_some _ _ _ A) as (pre & c & post & -> & Hp & Hc & ->). apply Forall_app in HF. destruct HF as (HF1 & HF2). inversion HF2 as [|? ? (Hne & Ht) HF3]; subst.
    apply fop_app in HO. destruct HO as (O1 & O2 & O3). inversion O2 as [|? ? O4 O5]; subst. destruct c as [|h t]; [congruence|]. repeat split.
    + rewrite concat_app in *. cbn [concat] in *. rewrite <- HP. rewrite <- !app_assoc. apply Permutation_app_head. apply Permutation_app_head. apply Permutation_app_comm.
    + apply Forall_app. split; auto. constructor; auto. split; [discriminate|]. cbn. intros j Hj. apply in_app_or in Hj. destruct Hj as [Hj|[<-|[]]]; [apply Ht; auto|auto].
    + apply fop_app. repeat split; auto.
      * constructor; auto.
      * intros a b Ha [<-|Hb] j Hj.
        -- apply in_app_or in Hj. destruct Hj as [Hj|[<-|[]]]; [eapply O3; eauto; left; auto|]. rewrite Forall_forall in Hp. auto.
        -- eapply O3; eauto. right; auto.
  - apply New. pose proof (add_to_none _ _ A) as H. rewrite Forall_forall in H. auto.
Qed.
Lemma clusters_inv : inv (get_clusters veq key ds) (filter (fun i => has key (nth i ds [])) (seq 0 (List.length ds))).
Proof.
  unfold get_clusters. generalize (seq 0 (List.length ds)) as l.
  assert (G : forall l cs is, inv cs is -> inv (fold_left (cluster_step veq key ds) l cs) (is ++ filter (fun i => has key (nth i ds [])) l)).
  { induction l as [|i l IH]; intros cs is H; cbn [fold_left filter]; [rewrite app_nil_r; auto|].
    pose proof (IH _ _ (step_inv cs is i H)) as X. rewrite <- app_assoc in X. destruct (has key (nth i ds [])); exact X. }
  intros l. apply (G l [] []). repeat split; constructor.
Qed.
End Clusters.

Lemma get_in {V} k (d : dict V) v : get k d = Some v -> In (k, v) d.
Proof. induction d as [|[k' v'] d IH]; cbn; [discriminate|]. destruct (String.eqb_spec k' k) as [->|]; intros H; [injection H as ->; auto|auto]. Qed.
Lemma in_get {V} k (d : dict V) v : NoDup (map fst d) -> In (k, v) d -> get k d = Some v.
Proof.
  induction d as [|[k' v'] d IH]; cbn; intros Hn Hi; [destruct Hi|]; destruct Hi as [E|Hin]; inversion Hn as [|? ? Hk Hn']; subst.
  - injection E as -> ->. rewrite String.eqb_refl. reflexivity.
  - destruct (String.eqb_spec k' k) as [->|]; [|auto]. exfalso. apply Hk. apply in_map_iff. exists (k, v); auto.
Qed.
Lemma has_in {V} k (d : dict V) : has k d = true <-> In k (map fst d).
Proof.
  unfold has. destruct (get k d) as [v|] eqn:E.
  - split; auto. intros _. apply get_in in E. apply in_map_iff. exists (k, v); auto.
  - split; [discriminate|]. intros H. exfalso. induction d as [|[k' v'] d IH]; cbn in *; auto.
    destruct (String.eqb_spec k' k) as [->|Hne]; [discriminate|]. destruct H as [H|H]; [congruence|auto].
Qed.

Definition skipped (k : string) : Prop := k = "results"%string \/ k = "name"%string.
Lemma diff_from_spec {V} (veq : V -> V -> bool) key (items d2 : dict V) : (forall a b, veq a b = true <-> a = b) -> NoDup (map fst d2) ->
  (diff_from veq key items d2 = true <-> forall k v, In (k, v) items -> ~ skipped k -> exists v2, In (k, v2) d2 /\ (k = key \/ v = v2)).
Proof.
  intros Hv Hn. induction items as [|[k v] items IH]; cbn [diff_from]; [split; [intros _ k v []|reflexivity]|].
  destruct (String.eqb k "results" || String.eqb k "name") eqn:S.
  - rewrite IH. apply orb_true_iff in S. rewrite !String.eqb_eq in S. split; intros H k' v' Hin Hs; [destruct Hin as [E|Hin]; [injection E as -> ->; exfalso; apply Hs; exact S|]|]; apply H; auto. right; auto.
  - apply orb_false_iff in S. rewrite !String.eqb_neq in S. destruct (get k d2) as [v2|] eqn:G.
    + pose proof (get_in _ _ _ G) as Gi. destruct (veq v v2) eqn:E; cbn [negb andb].
      * apply Hv in E. subst v2. rewrite IH. split; intros H k' v' Hin Hs; [destruct Hin as [E|Hin]; [injection E as -> ->; eauto|]|]; apply H; auto. right; auto.
      * destruct (String.eqb_spec k key) as [->|Hk]; cbn [negb].
        -- rewrite IH. split; intros H k' v' Hin Hs; [destruct Hin as [E'|Hin]; [injection E' as -> ->; eauto|]|]; apply H; auto. right; auto.
        -- split; [discriminate|]. intros H. destruct (H k v (or_introl eq_refl)) as (w & Hw & [->|<-]); [intros [|]; tauto|congruence|].
           apply (in_get _ _ _ Hn) in Hw. rewrite G in Hw. injection Hw as ->. rewrite (proj2 (Hv v v) eq_refl) in E. discriminate.
    + split; [discriminate|]. intros H. destruct (H k v (or_introl eq_refl)) as (w & Hw & _); [intros [|]; tauto|]. apply (in_get _ _ _ Hn) in Hw. congruence.
Qed.

Lemma diff_agree {V} (veq : V -> V -> bool) key (d1 d2 : dict V) : (forall a b, veq a b = true <-> a = b) -> NoDup (map fst d1) -> NoDup (map fst d2) ->
  In key (map fst d2) -> (forall k, ~ skipped k -> (In k (map fst d1) <-> In k (map fst d2))) ->
  (get_diff_key veq key d1 d2 = true <-> agree_outside key d1 d2).
Proof.
  intros Hv N1 N2 Hk Hs. unfold get_diff_key. rewrite diff_from_spec by auto. split.
  - intros H k v Hne Hr Hm. assert (S : ~ skipped k) by (intros [|]; congruence). split; intros Hin.
    + destruct (H k v Hin S) as (v2 & Hv2 & [->|<-]); [congruence|auto].
    + assert (Hi : In k (map fst d1)) by (apply Hs; auto; apply in_map_iff; exists (k, v); auto).
      apply in_map_iff in Hi. destruct Hi as ([k' v'] & Ek & Hi). cbn in Ek. subst k'. destruct (H k v' Hi S) as (v2 & Hv2 & [->|<-]); [congruence|].
      apply (in_get _ _ _ N2) in Hin, Hv2. rewrite Hin in Hv2. injection Hv2 as ->. auto.
  - intros H k v Hin S. destruct (string_dec k key) as [->|Hne].
    + apply in_map_iff in Hk. destruct Hk as ([k' v'] & Ek & Hi). cbn in Ek. subst k'. exists v'. auto.
    + exists v. split; auto. apply H; auto; intros ->; apply S; [left|right]; reflexivity.
Qed.

Lemma agree_refl {V} key (d : list (string * V)) : agree_outside key d d.
Proof. intros k v _ _ _. tauto. Qed.
Lemma agree_sym {V} key (d1 d2 : list (string * V)) : agree_outside key d1 d2 -> agree_outside key d2 d1.
Proof. intros H k v a b c. symmetry. auto. Qed.
Lemma agree_trans {V} key (d1 d2 d3 : list (string * V)) : agree_outside key d1 d2 -> agree_outside key d2 d3 -> agree_outside key d1 d3.
Proof. intros H1 H2 k v a b c. rewrite (H1 k v), (H2 k v) by auto. tauto. Qed.

Lemma fop_in {A} (R : A -> A -> Prop) l a b : ForallOrdPairs R l -> In a l -> In b l -> a = b \/ R a b \/ R b a.
Proof. intros H Ha Hb. apply ForallOrdPairs_In with (1 := H); auto. Qed.

Section ClusterFacts.
Variable V : Type.
Variable veq : V -> V -> bool.
Hypothesis Hveq : forall a b, veq a b = true <-> a = b.
Variable key : string.
Variable ds : list (dict V).

Lemma clusters_partition : Permutation (concat (get_clusters veq key ds)) (filter (fun i => has key (nth i ds [])) (seq 0 (List.length ds)))
  /\ Forall (fun c => c <> []) (get_clusters veq key ds).
Proof.
  destruct (clusters_inv V veq key ds) as (H1 & H2 & _). split; auto. eapply Forall_impl; [|exact H2]. cbn. tauto.
Qed.
Lemma member_has c i : In c (get_clusters veq key ds) -> In i c -> i < List.length ds /\ has key (nth i ds []) = true.
Proof.
  intros Hc Hi. destruct clusters_partition as (P & _). assert (X : In i (concat (get_clusters veq key ds))) by (apply in_concat; eauto).
  apply (Permutation_in _ P) in X. apply filter_In in X. destruct X as (X & Y). apply in_seq in X. split; [lia|auto].
Qed.

Hypothesis Hnd : forall d, In d ds -> NoDup (map fst d).
Lemma clusters_first c i : In c (get_clusters veq key ds) -> In i c ->
  forall k v, In (k, v) (nth (hd 0 c) ds []) -> k <> key -> k <> "results"%string -> k <> "name"%string -> In (k, v) (nth i ds []).
Proof.
  intros Hc Hi k v Hin Hk Hr Hm. destruct (clusters_inv V veq key ds) as (_ & H2 & _). rewrite Forall_forall in H2. destruct (H2 c Hc) as (Hne & Ht).
  destruct c as [|h t]; [congruence|]. cbn [hd tl] in *. destruct Hi as [<-|Hi]; auto. specialize (Ht i Hi). destruct (member_has _ i Hc (or_intror Hi)) as (Hl & _).
  unfold get_diff_key in Ht. rewrite diff_from_spec in Ht by (auto; apply Hnd, nth_In; auto).
  destruct (Ht k v Hin) as (v2 & Hv2 & [->|<-]); [intros [|]; congruence|congruence|auto].
Qed.

Hypothesis Hsame : forall d1 d2, In d1 ds -> In d2 ds -> In key (map fst d1) -> In key (map fst d2) ->
  forall k, k <> "results"%string -> k <> "name"%string -> (In k (map fst d1) <-> In k (map fst d2)).
Lemma r_agree i j : i < List.length ds -> j < List.length ds -> has key (nth i ds []) = true -> has key (nth j ds []) = true ->
  (get_diff_key veq key (nth i ds []) (nth j ds []) = true <-> agree_outside key (nth i ds []) (nth j ds [])).
Proof.
  intros Hi Hj Ki Kj. apply has_in in Ki, Kj. apply diff_agree; auto; try (apply Hnd, nth_In; auto).
  intros k Hk. apply Hsame; auto; try (apply nth_In; auto); intros ->; apply Hk; [left|right]; reflexivity.
Qed.
Lemma with_first c i : In c (get_clusters veq key ds) -> In i c -> agree_outside key (nth (hd 0 c) ds []) (nth i ds []) /\ In (hd 0 c) c.
Proof.
  intros Hc Hi. destruct (clusters_inv V veq key ds) as (_ & H2 & _). rewrite Forall_forall in H2. destruct (H2 c Hc) as (Hne & Ht).
  destruct c as [|h t]; [congruence|]. cbn [hd tl] in *. split; [|left; auto]. destruct Hi as [<-|Hi]; [apply agree_refl|].
  destruct (member_has _ h Hc (or_introl eq_refl)). destruct (member_has _ i Hc (or_intror Hi)). apply r_agree; auto.
Qed.
Lemma clusters_iff i j : i < List.length ds -> j < List.length ds -> In key (map fst (nth i ds [])) -> In key (map fst (nth j ds [])) ->
  (share (get_clusters veq key ds) i j <-> agree_outside key (nth i ds []) (nth j ds [])).
Proof.
  intros Hi Hj Ki Kj. apply has_in in Ki, Kj. split.
  - intros (c & Hc & Ic & Jc). destruct (with_first c i Hc Ic) as (A1 & _). destruct (with_first c j Hc Jc) as (A2 & _).
    eapply agree_trans; [apply agree_sym; exact A1|exact A2].
  - intros A. destruct clusters_partition as (P & _).
    assert (F : forall x, x < List.length ds -> has key (nth x ds []) = true -> exists c, In c (get_clusters veq key ds) /\ In x c).
    { intros x Hx Kx. assert (X : In x (concat (get_clusters veq key ds))).
      { apply (Permutation_in _ (Permutation_sym P)). apply filter_In. split; [apply in_seq; lia|auto]. }
      apply in_concat in X. destruct X as (c & ? & ?); eauto. }
    destruct (F i Hi Ki) as (ci & Ci & Ii). destruct (F j Hj Kj) as (cj & Cj & Jj).
    destruct (with_first ci i Ci Ii) as (A1 & Hhi). destruct (with_first cj j Cj Jj) as (A2 & Hhj).
    destruct (member_has _ _ Ci Hhi) as (L1 & K1). destruct (member_has _ _ Cj Hhj) as (L2 & K2).
    destruct (clusters_inv V veq key ds) as (_ & _ & HO). destruct (fop_in _ _ ci cj HO Ci Cj) as [->|[R|R]].
    + exists cj. auto.
    + exfalso. specialize (R j Jj). assert (X : get_diff_key veq key (nth (hd 0 ci) ds []) (nth j ds []) = true); [|congruence].
      apply r_agree; auto. eapply agree_trans; eauto.
    + exfalso. specialize (R i Ii). assert (X : get_diff_key veq key (nth (hd 0 cj) ds []) (nth i ds []) = true); [|congruence].
      apply r_agree; auto. eapply agree_trans; [exact A2|apply agree_sym; auto].
Qed.
End ClusterFacts.

(** ** Normalised cuts *)
Local Open Scope R_scope.
Definition ind (b : bool) : R := if b then 1 else 0.
Lemma rsum_pick n u (c : nat -> R) : (u < n)%nat -> rsum (seq 0 n) (fun i => ind (Nat.eqb u i) * c i) = c u.
Proof.
  intros Hu. rewrite (rsum_single (seq 0 n) _ u); [unfold ind; rewrite Nat.eqb_refl; ring|apply seq_NoDup|apply in_seq; lia|].
  intros b _ Hb. unfold ind. destruct (Nat.eqb_spec u b); [congruence|ring].
Qed.
Lemma rsum_pick2 n u v (c : nat -> nat -> R) : (u < n)%nat -> (v < n)%nat ->
  rsum (seq 0 n) (fun i => rsum (seq 0 n) (fun j => ind (Nat.eqb u i) * ind (Nat.eqb v j) * c i j)) = c u v.
Proof.
  intros Hu Hv. rewrite (rsum_ext _ _ (fun i => ind (Nat.eqb u i) * c i v)); [apply (rsum_pick n u (fun i => c i v)); auto|].
  intros i _. rewrite (rsum_ext _ _ (fun j => ind (Nat.eqb u i) * (ind (Nat.eqb v j) * c i j))) by (intros; ring).
  rewrite rsum_scal, (rsum_pick n v (fun j => c i j)) by auto. reflexivity.
Qed.
Lemma adj_sum n (es : list (nat * nat * R)) (phi : R -> R) (c : nat -> nat -> R) : simple n (map fst es) -> phi 0 = 0 ->
  rsum (seq 0 n) (fun i => rsum (seq 0 n) (fun j => phi (adj_matrix es i j) * c i j))
  = rsum es (fun e => phi (snd e) * (c (fst (fst e)) (snd (fst e)) + c (snd (fst e)) (fst (fst e)))).
Proof.
  intros (Hl & Hn) H0. induction es as [|[[u v] w] es IH].
  - cbn [rsum]. apply rsum_const0. intros i _. apply rsum_const0. intros j _. cbn. rewrite H0. ring.
  - cbn [map fst snd] in Hl, Hn. inversion Hn as [|? ? Hni Hn']; subst. destruct (Hl u v (or_introl eq_refl)) as (Hu & Hv & Huv).
    cbn [rsum fst snd]. rewrite <- IH; [|intros a b Hab; apply Hl; right; auto|auto].
    assert (Z : forall i j, (u = i /\ v = j) \/ (u = j /\ v = i) -> adj_matrix es i j = 0).
    { intros i j Hij. unfold adj_matrix. destruct (find _ es) as [e|] eqn:F; auto. exfalso. apply find_some in F. destruct F as (Hin & Hm).
      apply Hni. apply in_map_iff. exists (fst e). split; [|apply in_map; auto].
      apply orb_true_iff in Hm. rewrite !andb_true_iff, !Nat.eqb_eq in Hm. f_equal; lia. }
    rewrite (rsum_ext (seq 0 n) (fun i => rsum (seq 0 n) (fun j => phi (adj_matrix ((u, v, w) :: es) i j) * c i j))
      (fun i => rsum (seq 0 n) (fun j => ind (Nat.eqb u i) * ind (Nat.eqb v j) * (phi w * c i j))
         + rsum (seq 0 n) (fun j => ind (Nat.eqb v i) * ind (Nat.eqb u j) * (phi w * c i j))
         + rsum (seq 0 n) (fun j => phi (adj_matrix es i j) * c i j))).
    + rewrite !rsum_plus. rewrite (rsum_pick2 n u v (fun i j => phi w * c i j)), (rsum_pick2 n v u (fun i j => phi w * c i j)) by auto. ring.
    + intros i _. rewrite <- !rsum_plus. apply rsum_ext. intros j _. unfold adj_matrix at 1. cbn [find fst snd].
      destruct (Nat.eqb_spec u i) as [Ei|Ei], (Nat.eqb_spec v j) as [Ej|Ej], (Nat.eqb_spec u j) as [Fj|Fj], (Nat.eqb_spec v i) as [Fi|Fi]; try (exfalso; lia); cbn [andb orb ind];
        try (rewrite (Z i j) by auto; rewrite H0; cbn [snd]; ring); fold (adj_matrix es i j); ring.
Qed.

Lemma rsum_count {A} (p : A -> bool) (l : list A) : rsum l (fun a => if p a then 1 else 0) = INR (List.length (filter p l)).
Proof. induction l as [|a l IH]; cbn [rsum filter]; [reflexivity|]. rewrite IH. destruct (p a); cbn [List.length]; [rewrite S_INR; ring|ring]. Qed.

Lemma cut_mat_sum groups n es : simple n (map fst es) ->
  num_cut_adj_mat groups n (adj_matrix es) = 2 * INR (cut_edges groups (map fst (filter (fun e => if Req_EM_T (snd e) 1 then true else false) es))).
Proof.
  intros Hs. unfold num_cut_adj_mat.
  rewrite (rsum_ext _ _ (fun i => rsum (seq 0 n) (fun j => (fun a => if Req_EM_T a 1 then 1 else 0) (adj_matrix es i j) * (if Nat.eqb (groups i) (groups j) then 0 else 1)))).
  2: { intros i _. apply rsum_ext. intros j _. destruct (Req_EM_T (adj_matrix es i j) 1); ring. }
  rewrite (adj_sum n es (fun a => if Req_EM_T a 1 then 1 else 0) (fun i j => if Nat.eqb (groups i) (groups j) then 0 else 1)); auto. 2: destruct (Req_EM_T 0 1); [lra|auto].
  unfold cut_edges. clear Hs. induction es as [|[[u v] w] es IH]; cbn [rsum map filter fst snd]; [cbn; ring|]. rewrite IH. rewrite (Nat.eqb_sym (groups v)).
  destruct (Req_EM_T w 1); cbn [map filter fst snd]; [|ring]. destruct (Nat.eqb (groups u) (groups v)); cbn [negb List.length]; [ring|]. rewrite S_INR. ring.
Qed.
Definition unit_weights (es : list (nat * nat)) : list (nat * nat * R) := map (fun e => (e, 1)) es.
Lemma unit_fst es : map fst (unit_weights es) = es.
Proof. unfold unit_weights. rewrite map_map. cbn. apply map_id. Qed.
Lemma cut_mat_unit groups n es : simple n es -> num_cut_adj_mat groups n (adj_matrix (unit_weights es)) = 2 * INR (cut_edges groups es).
Proof.
  intros Hs. rewrite cut_mat_sum by (rewrite unit_fst; auto). do 2 f_equal. f_equal. clear Hs. induction es as [|e es IH]; cbn; auto.
  destruct (Req_EM_T 1 1); [cbn; f_equal; auto|lra].
Qed.
Lemma cut_le groups es : (cut_edges groups es <= List.length es)%nat.
Proof. apply filter_length_le. Qed.

Lemma volumes_sum groups n k es : simple n (map fst es) -> (forall i, (i < n)%nat -> (groups i < k)%nat) ->
  rsum (seq 0 k) (calc_volume groups n (adj_matrix es)) = 2 * rsum es snd.
Proof.
  intros Hs Hg. unfold calc_volume. rewrite rsum_swap.
  rewrite (rsum_ext _ _ (fun i => rsum (seq 0 n) (fun j => (fun a => a) (adj_matrix es i j) * 1))).
  - rewrite (adj_sum n es (fun a => a) (fun _ _ => 1)) by auto. rewrite <- rsum_scal. apply rsum_ext. intros; ring.
  - intros i Hi. apply in_seq in Hi. rewrite (rsum_single (seq 0 k) _ (groups i)); [|apply seq_NoDup|apply in_seq; specialize (Hg i); lia|].
    + rewrite Nat.eqb_refl. apply rsum_ext. intros; ring.
    + intros b _ Hb. destruct (Nat.eqb_spec (groups i) b); [congruence|auto].
Qed.
(** The volume of a group is the total degree of its nodes. *)
Lemma volume_degrees groups n es g : simple n es ->
  calc_volume groups n (adj_matrix (unit_weights es)) g = rsum es (fun e => ind (Nat.eqb (groups (fst e)) g) + ind (Nat.eqb (groups (snd e)) g)).
Proof.
  intros Hs. unfold calc_volume.
  rewrite (rsum_ext _ _ (fun i => rsum (seq 0 n) (fun j => (fun a => a) (adj_matrix (unit_weights es) i j) * ind (Nat.eqb (groups i) g)))).
  - rewrite (adj_sum n (unit_weights es) (fun a => a) (fun i _ => ind (Nat.eqb (groups i) g))) by (auto; rewrite unit_fst; auto).
    unfold unit_weights. rewrite rsum_map. cbn [fst snd]. apply rsum_ext. intros; ring.
  - intros i _. rewrite rsum_scal_r. unfold ind. destruct (Nat.eqb (groups i) g); ring.
Qed.

Lemma num_cut_list groups n es (adj : nat -> list nat) : simple n es ->
  (forall i, (i < n)%nat -> NoDup (adj i) /\ forall j, In j (adj i) <-> adjacent es i j) ->
  num_cut groups n adj = INR (cut_edges groups es).
Proof.
  intros Hs Ha. replace (INR (cut_edges groups es)) with ((2 * INR (cut_edges groups es)) / 2) by lra.
  rewrite <- (cut_mat_unit groups n es Hs). unfold num_cut. unfold Rdiv. f_equal. unfold num_cut_adj_mat. apply rsum_ext. intros i Hi. apply in_seq in Hi.
  destruct (Ha i) as (Hn & Hadj); [lia|]. set (f := fun j => if Nat.eqb (groups i) (groups j) then 0 else 1).
  assert (A1 : forall j, adj_matrix (unit_weights es) i j = 1 <-> adjacent es i j).
  { intros j. unfold adj_matrix. destruct (find _ (unit_weights es)) as [e|] eqn:F.
    - apply find_some in F. destruct F as (Hin & Hm). unfold unit_weights in Hin. apply in_map_iff in Hin. destruct Hin as ([u v] & <- & Hin). cbn [fst snd] in *.
      split; auto. intros _. apply orb_true_iff in Hm. rewrite !andb_true_iff, !Nat.eqb_eq in Hm. destruct Hm as [(-> & ->)|(-> & ->)]; [left|right]; auto.
    - split; [lra|]. intros Had. exfalso. destruct Had as [Had|Had].
      + assert (X := find_none _ _ F ((i, j), 1) ltac:(apply in_map_iff; exists (i, j); auto)). cbn [fst snd] in X. rewrite !Nat.eqb_refl in X. discriminate X.
      + assert (X := find_none _ _ F ((j, i), 1) ltac:(apply in_map_iff; exists (j, i); auto)). cbn [fst snd] in X. rewrite !Nat.eqb_refl, orb_true_r in X. discriminate X. }
  rewrite (rsum_ext (seq 0 n) _ (fun j => if (if Req_EM_T (adj_matrix (unit_weights es) i j) 1 then true else false) then f j else 0)).
  - rewrite <- rsum_filter. apply rsum_perm. apply NoDup_Permutation; [auto|apply NoDup_filter, seq_NoDup|]. intros j. rewrite filter_In, Hadj, <- A1. split.
    + intros E. destruct (Req_EM_T (adj_matrix (unit_weights es) i j) 1); [|contradiction]. split; auto. apply in_seq. apply A1 in E. destruct Hs as (Hl & _).
      destruct E as [E|E]; apply Hl in E; lia.
    + intros (_ & E). destruct (Req_EM_T (adj_matrix (unit_weights es) i j) 1); [auto|discriminate].
  - intros j _. unfold f. destruct (Req_EM_T (adj_matrix (unit_weights es) i j) 1); reflexivity.
Qed.

(** Balance. *)
Lemma off_diagonal (b : list nat) : let ix := seq 0 (List.length b) in
  rsum ix (fun s => rsum ix (fun t => if Nat.eqb s t then 0 else INR (nth s b 0%nat) * INR (nth t b 0%nat))) = rsum b INR ^ 2 - rsum b (fun c => INR c ^ 2).
Proof.
  intros ix. rewrite (rsum_ext ix _ (fun s => INR (nth s b 0%nat) * rsum b INR - INR (nth s b 0%nat) ^ 2)).
  - rewrite rsum_minus, rsum_scal_r. rewrite (rsum_nth b 0%nat INR), (rsum_nth b 0%nat (fun c => INR c ^ 2)). fold ix. ring.
  - intros s Hs. rewrite (rsum_nth b 0%nat INR). fold ix.
    assert (E : rsum ix (fun t => (if Nat.eqb s t then 0 else INR (nth s b 0%nat) * INR (nth t b 0%nat)) + (if Nat.eqb s t then INR (nth s b 0%nat) * INR (nth t b 0%nat) else 0))
      = INR (nth s b 0%nat) * rsum ix (fun t => INR (nth t b 0%nat))).
    { rewrite <- rsum_scal. apply rsum_ext. intros t _. destruct (Nat.eqb s t); ring. }
    rewrite rsum_plus in E. rewrite (rsum_single ix (fun t => if Nat.eqb s t then INR (nth s b 0%nat) * INR (nth t b 0%nat) else 0) s) in E.
    + rewrite Nat.eqb_refl in E. cbn [pow]. lra.
    + apply seq_NoDup.
    + exact Hs.
    + intros t _ Ht. destruct (Nat.eqb_spec s t); [congruence|auto].
Qed.
Lemma rsum_nonzero (l : list nat) (f : nat -> R) : f 0%nat = 0 -> rsum (filter (fun c => negb (Nat.eqb c 0)) l) f = rsum l f.
Proof. intros H0. rewrite rsum_filter. apply rsum_ext. intros c _. destruct (Nat.eqb_spec c 0) as [->|]; cbn; auto. Qed.
Lemma sizes_total groups n k : (forall i, (i < n)%nat -> (groups i < k)%nat) -> rsum (seq 0 k) (fun g => INR (group_size groups n g)) = INR n.
Proof.
  intros Hg. unfold group_size. rewrite (rsum_ext _ _ (fun g => rsum (seq 0 n) (fun i => if Nat.eqb (groups i) g then 1 else 0))) by (intros; symmetry; apply rsum_count).
  rewrite rsum_swap. rewrite (rsum_ext _ _ (fun _ => 1)).
  - rewrite rsum_const, seq_length. ring.
  - intros i Hi. apply in_seq in Hi. rewrite (rsum_single (seq 0 k) _ (groups i)); [rewrite Nat.eqb_refl; auto|apply seq_NoDup|apply in_seq; specialize (Hg i); lia|].
    intros b _ Hb. destruct (Nat.eqb_spec (groups i) b); [congruence|auto].
Qed.
Lemma balance_value groups n k : (2 <= k)%nat -> (0 < n)%nat -> (forall i, (i < n)%nat -> (groups i < k)%nat) ->
  balanceness groups n k = 1 - rsum (seq 0 k) (fun g => (INR k * INR (group_size groups n g) - INR n) ^ 2) / (INR k * (INR k - 1) * INR n ^ 2).
Proof.
  intros Hk Hn Hg. unfold balanceness. rewrite off_diagonal. unfold bin_sizes.
  rewrite (rsum_nonzero _ INR) by reflexivity. rewrite (rsum_nonzero _ (fun c => INR c ^ 2)) by (cbn; ring). rewrite !rsum_map.
  change (fun a => INR (List.length (filter (fun i => Nat.eqb (groups i) a) (seq 0 n)))) with (fun g => INR (group_size groups n g)).
  change (fun a => INR (List.length (filter (fun i => Nat.eqb (groups i) a) (seq 0 n))) ^ 2) with (fun g => INR (group_size groups n g) ^ 2).
  rewrite sizes_total by auto.
  rewrite (rsum_ext (seq 0 k) (fun g => (INR k * INR (group_size groups n g) - INR n) ^ 2)
    (fun g => INR k ^ 2 * INR (group_size groups n g) ^ 2 + ((- 2 * INR k * INR n) * INR (group_size groups n g) + INR n ^ 2))) by (intros; ring).
  rewrite !rsum_plus, !rsum_scal, sizes_total, rsum_const, seq_length by auto. set (S2 := rsum (seq 0 k) (fun g => INR (group_size groups n g) ^ 2)).
  assert (2 <= INR k) by (apply (le_INR 2); auto). assert (0 < INR n) by (apply lt_0_INR; auto). field. repeat split; lra.
Qed.
Lemma sq_sum_zero (l : list nat) (f : nat -> R) : rsum l (fun g => f g ^ 2) = 0 <-> forall g, In g l -> f g = 0.
Proof.
  split.
  - intros H g Hg. pose proof (rsum_ge_term l (fun g => f g ^ 2) g Hg ltac:(intros; apply pow2_ge_0)) as X. cbn beta in X. rewrite H in X.
    pose proof (pow2_ge_0 (f g)). apply Rsqr_0_uniq. unfold Rsqr. cbn [pow] in *. lra.
  - intros H. apply rsum_const0. intros g Hg. rewrite (H g Hg). ring.
Qed.
Lemma balance_facts groups n k : (2 <= k)%nat -> (0 < n)%nat -> (forall i, (i < n)%nat -> (groups i < k)%nat) ->
  0 <= balanceness groups n k <= 1 /\ (balanceness groups n k = 1 <-> forall g, (g < k)%nat -> (k * group_size groups n g = n)%nat).
Proof.
  intros Hk Hn Hg. assert (K2 : 2 <= INR k) by (apply (le_INR 2); auto). assert (N0 : 0 < INR n) by (apply lt_0_INR; auto).
  assert (D : 0 < INR k * (INR k - 1) * INR n ^ 2) by (apply Rmult_lt_0_compat; [apply Rmult_lt_0_compat; lra|apply pow_lt; auto]).
  split; [split|].
  - unfold balanceness. assert (0 <= / ((INR k - 1) * INR n ^ 2)) by (left; apply Rinv_0_lt_compat, Rmult_lt_0_compat; [lra|apply pow_lt; auto]).
    apply Rmult_le_pos; auto. apply Rmult_le_pos; [|lra]. apply rsum_nonneg. intros s _. apply rsum_nonneg. intros t _. destruct (Nat.eqb s t); [lra|]. apply Rmult_le_pos; apply pos_INR.
  - rewrite balance_value by auto. assert (0 <= rsum (seq 0 k) (fun g => (INR k * INR (group_size groups n g) - INR n) ^ 2)) by (apply rsum_nonneg; intros; apply pow2_ge_0).
    assert (0 <= rsum (seq 0 k) (fun g => (INR k * INR (group_size groups n g) - INR n) ^ 2) / (INR k * (INR k - 1) * INR n ^ 2)) by (apply Rmult_le_pos; auto; left; apply Rinv_0_lt_compat; auto). lra.
  - rewrite balance_value by auto. split.
    + intros H g Hgk. assert (Z : rsum (seq 0 k) (fun g => (INR k * INR (group_size groups n g) - INR n) ^ 2) = 0).
      { apply Rmult_eq_reg_r with (/ (INR k * (INR k - 1) * INR n ^ 2)); [unfold Rdiv in H; lra|]. apply Rinv_neq_0_compat. lra. }
      rewrite (sq_sum_zero _ (fun g => INR k * INR (group_size groups n g) - INR n)) in Z. specialize (Z g ltac:(apply in_seq; lia)). apply INR_eq. rewrite mult_INR. lra.
    + intros H. rewrite (proj2 (sq_sum_zero (seq 0 k) (fun g => INR k * INR (group_size groups n g) - INR n))); [unfold Rdiv; ring|].
      intros g Hgk. apply in_seq in Hgk. rewrite <- mult_INR, H by lia. ring.
Qed.
