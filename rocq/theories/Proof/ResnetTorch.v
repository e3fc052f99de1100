From Coq Require Import Reals String List Arith Bool Lia Lra.
From Verif.Base Require Import RSum XFloat.
From Verif.Model Require Import Convert Resnet.
From Verif.Spec Require Import ConvertSpec ResnetSpec.
From Verif.Proof Require Import ConvertProof ResnetProof.
Import ListNotations.
Local Open Scope R_scope.

(** *** Shapes and entries after the conversion *)
Lemma loop_shapes : forall th ps m ps' m', convert_loop th ps m = Some (ps', m') -> forall k, option_map shape (lookup k ps') = option_map shape (lookup k ps).
Proof.
  induction th as [| [key v] th IH]; intros ps m ps' m'; cbn [convert_loop]; [intros [= <- <-]; reflexivity |].
  destruct (key_eqb key ["mean"%string]); [apply IH |]. destruct (store key v ps) as [ps1 |] eqn:ES; [| discriminate].
  destruct (store_spec _ _ _ _ ES) as (pk & new & _ & _ & E3 & (old & E4 & E5) & ->). intros H k. rewrite (IH _ _ _ _ H), lookup_replace by exact E3.
  destruct (key_eqb_spec k pk) as [-> | N]; [rewrite E4; cbn [option_map]; congruence | reflexivity].
Qed.
Lemma lookup_member k v ps : lookup k ps = Some v -> In (k, v) ps.
Proof. induction ps as [| [k' v'] ps IH]; cbn; [discriminate |]. destruct (key_eqb_spec k' k) as [-> | N]; [intros [= ->]; left; reflexivity | right; auto]. Qed.
Lemma entry_in k v th : NoDup (map fst th) -> In (k, v) th -> entry k th = Some v.
Proof.
  induction th as [| [k' v'] th IH]; cbn; intros HN; [contradiction |]. inversion HN; subst. intros [[= -> ->] | Hi].
  - destruct (list_eq_dec string_dec k k); [reflexivity | congruence].
  - destruct (list_eq_dec string_dec k' k) as [-> | N]; [exfalso; apply H1; change k with (fst (k, v)); apply in_map, Hi | auto].
Qed.

Section Converted.
Variables (th : list (list string * arr)) (ps ps' : params) (m : option arr).
Hypotheses (HP : NoDup (map fst ps)) (HT : NoDup (map fst th)) (HF : Forall torch_name (map fst th)) (HM : In ["mean"%string] (map fst th))
  (HC : convert th ps = Some (ps', m)).

Lemma from_checkpoint k s tk : has ps k s -> torch_name tk -> tk <> ["mean"%string] -> param_key tk = Some k ->
  exists a tv, lookup k ps' = Some a /\ shape a = s /\ entry tk th = Some tv /\ converted k tv = Some a.
Proof.
  intros (a0 & E0 & S0) HK HK' HPK.
  destruct (convert_all th ps ps' m HP HT (torch_names_one_to_one _ HF) HM HC) as (K & L & _).
  assert (HS : option_map shape (lookup k ps') = Some s).
  { unfold convert in HC. destruct (Nat.eqb _ _); [| discriminate]. rewrite (loop_shapes _ _ _ _ _ HC), E0. cbn. congruence. }
  destruct (lookup k ps') as [a |] eqn:EA; [| discriminate]. injection HS as HS.
  destruct (L k a (lookup_member _ _ _ EA)) as (tk' & tv & Hi & E1 & E2).
  assert (Hi' : In tk' (map fst th)) by (change tk' with (fst (tk', tv)); apply in_map, Hi).
  assert (tk' = tk).
  { apply (torch_names_one_to_one (tk :: map fst th)); [constructor; assumption | right; exact Hi' | left; reflexivity | | exact HK' | congruence].
    intros ->. discriminate. }
  subst tk'. exists a, tv. repeat split; auto. apply entry_in; assumption.
Qed.

(** A convolution of the network and the torch convolution it comes from. *)
Definition same_conv (path tpath : list string) (k I O : nat) : Prop :=
  exists w b, lookup (path ++ ["kernel"%string]) ps' = Some (transpose4 w) /\ shape (transpose4 w) = [k; k; I; O] /\
    lookup (path ++ ["bias"%string]) ps' = Some b /\ shape b = [O] /\ entry (tpath ++ ["weight"%string]) th = Some w /\ entry (tpath ++ ["bias"%string]) th = Some b.
Lemma converted_conv path tpath k I O : conv_shape ps path k I O ->
  (forall p, In p ["weight"; "bias"]%string -> torch_name (tpath ++ [p])) ->
  tpath <> [] -> param_key (tpath ++ ["weight"%string]) = Some (path ++ ["kernel"%string]) -> param_key (tpath ++ ["bias"%string]) = Some (path ++ ["bias"%string]) ->
  same_conv path tpath k I O.
Proof.
  intros [HK HB] HN HNE HPK HPB.
  assert (NM : forall p, tpath ++ [p] <> ["mean"%string]).
  { intros p E. destruct tpath as [| a l]; [congruence |]. cbn in E. injection E as _ E. destruct l; discriminate. }
  destruct (from_checkpoint _ _ (tpath ++ ["weight"%string]) HK) as (a & w & E1 & S1 & E2 & E3); [apply HN; left; reflexivity | apply NM | exact HPK |].
  destruct (from_checkpoint _ _ (tpath ++ ["bias"%string]) HB) as (b & b' & F1 & T1 & F2 & F3); [apply HN; right; left; reflexivity | apply NM | exact HPB |].
  destruct (converted_spec _ _ _ E3) as [G _]. destruct (converted_spec _ _ _ F3) as [_ G'].
  rewrite last_last in G, G'. specialize (G eq_refl). specialize (G' ltac:(discriminate)). subst b'.
  destruct G as [[_ ->] | [L ->]].
  - exists w, b. auto 7.
  - exfalso. cbn [transpose2 shape] in S1. destruct (shape w) as [| x1 [| x2 [| x3 l]]]; try discriminate.
Qed.

(** Tensors that agree with a torch image. *)
Definition sim (C H W : nat) (t : tensor) (img : nat -> nat -> nat -> R) : Prop :=
  rows t = H /\ cols t = W /\ chans t = C /\ forall r c i, val t r c i = img i r c.
Lemma sim_conv path tpath k I O stride pad H W t img : same_conv path tpath k I O -> sim I H W t img ->
  (k <= H + 2 * pad)%nat -> (k <= W + 2 * pad)%nat ->
  exists t' img', conv_named ps' path O k stride pad t = Some t' /\ conv_layer th tpath I k H W stride pad img = Some img' /\
    sim O (out_size k pad stride H) (out_size k pad stride W) t' img'.
Proof.
  intros (w & b & E1 & S1 & E2 & S2 & E3 & E4) (R1 & R2 & R3 & HV) HH HW. unfold conv_named, conv_layer. rewrite E1, E2, E3, E4. unfold conv.
  rewrite R1, R2, R3, (proj2 (shape_eqb_iff _ _) S1), (proj2 (shape_eqb_iff _ _) S2), (proj2 (Nat.leb_le _ _) HH), (proj2 (Nat.leb_le _ _) HW). cbn [andb].
  do 2 eexists. split; [reflexivity |]. split; [reflexivity |]. repeat split; cbn [rows cols chans val]. intros r c o.
  rewrite <- conv_same. unfold flax_conv. f_equal. apply rsum_ext. intros h _. apply rsum_ext. intros v _. apply rsum_ext. intros i _. f_equal.
  unfold at_padded, padded. rewrite R1, R2. destruct (_ && _)%bool; [apply HV | reflexivity].
Qed.
Lemma sim_unit C H W t img : sim C H W t img -> sim C H W (map_val swish t) (fun o r c => sigmoid_unit (img o r c)).
Proof. intros (R1 & R2 & R3 & HV). repeat split; auto. intros r c i. cbn [map_val val]. rewrite HV. reflexivity. Qed.

Definition same_block (C : nat) (layer : string) (stride : nat) : Prop :=
  same_conv [("BasicBlock_" ++ layer)%string; "Conv_0"%string] ["net"; "net"; layer; "conv1"]%string 3 C C /\
  same_conv [("BasicBlock_" ++ layer)%string; "Conv_1"%string] ["net"; "net"; layer; "conv2"]%string 3 C C /\
  (stride = 1%nat \/ same_conv [("BasicBlock_" ++ layer)%string; "shortcut_conv"%string] ["net"; "net"; layer; "shortcut_conv"]%string 1 C C).
Lemma sim_block C layer stride H W t img : same_block C layer stride -> sim C H W t img -> (1 <= H)%nat -> (1 <= W)%nat ->
  exists t' img', basic_block ps' ("BasicBlock_" ++ layer)%string C stride t = Some t' /\ torch_block th layer C stride H W img = Some img' /\
    sim C (shrunk stride H) (shrunk stride W) t' img'.
Proof.
  intros (S0 & S1 & S2) HS HH HW. unfold basic_block, torch_block.
  destruct (sim_conv _ _ _ _ _ stride 1 _ _ _ _ S0 HS) as (h & ih & Eh & Eih & Sh); [lia | lia |]. rewrite Eh, Eih. cbn [ob]. rewrite !out3 in Sh by assumption.
  pose proof (shrunk_pos stride H). pose proof (shrunk_pos stride W).
  destruct (sim_conv _ _ _ _ _ 1 1 _ _ _ _ S1 (sim_unit _ _ _ _ _ Sh)) as (o & io & Eo & Eio & So); [lia | lia |]. rewrite Eo, Eio. cbn [ob]. rewrite !out3, !shrunk1 in So by assumption.
  assert (HSC : exists sc isc, (if needs_shortcut C stride t then conv_named ps' [("BasicBlock_" ++ layer)%string; "shortcut_conv"%string] C 1 stride 0 t else Some t) = Some sc /\
    (if Nat.eqb stride 1 then Some img else conv_layer th ["net"; "net"; layer; "shortcut_conv"]%string C 1 H W stride 0 img) = Some isc /\
    sim C (shrunk stride H) (shrunk stride W) sc isc).
  { unfold needs_shortcut. destruct HS as (R1 & R2 & R3 & HV). rewrite R3, Nat.eqb_refl. cbn [negb]. rewrite orb_false_r.
    destruct (Nat.eqb_spec stride 1) as [-> | N]; cbn [negb].
    - exists t, img. rewrite !shrunk1 by assumption. repeat split; auto.
    - destruct S2 as [E | S2]; [contradiction |].
      destruct (sim_conv _ _ _ _ _ stride 0 H W t img S2) as (sc & isc & Es & Eis & Ss); [repeat split; auto | lia | lia |]. rewrite !out1 in Ss. exists sc, isc. auto. }
  destruct HSC as (sc & isc & Es & Eis & Ss). rewrite Es, Eis. cbn [ob]. destruct So as (R1 & R2 & R3 & HV), Ss as (Q1 & Q2 & Q3 & HV').
  unfold add. rewrite R1, R2, R3, Q1, Q2, Q3, !Nat.eqb_refl. cbn [andb ob]. do 2 eexists. split; [reflexivity |]. split; [reflexivity |].
  repeat split. intros r c i. cbn [map_val val]. rewrite HV, HV'. reflexivity.
Qed.
Lemma sim_blocks C : forall pl H W t img, Forall (fun b => same_block C (fst b) (snd b)) pl -> sim C H W t img -> (1 <= H)%nat -> (1 <= W)%nat ->
  exists t' H' W' img', blocks ps' C (map (fun b => (("BasicBlock_" ++ fst b)%string, snd b)) pl) t = Some t' /\ torch_blocks th C pl H W img = Some (H', W', img') /\ sim C H' W' t' img'.
Proof.
  induction pl as [| [layer stride] pl IH]; intros H W t img HB HS HH HW; cbn [map blocks torch_blocks fst snd].
  - exists t, H, W, img. auto.
  - inversion HB; subst. cbn [fst snd] in *. destruct (sim_block C layer stride H W t img) as (t1 & i1 & E1 & E2 & S1); auto. rewrite E1, E2. cbn [ob].
    apply IH; auto using shrunk_pos.
Qed.

Theorem converted_network C H W x : net_shapes ps C -> (1 <= H)%nat -> (1 <= W)%nat -> length x = (H * W)%nat ->
  exists e, resnet ps' C H W x = Some e /\ torch_energy th C H W x = Some e.
Proof.
  intros (N0 & NB & NS & ND & ND') HH HW HL.
  assert (B0 : same_conv ["Conv_0"%string] ["net"; "proj"]%string 3 1 C).
  { apply converted_conv; [exact N0 | intros p Hp; apply (tn_proj p Hp) | discriminate | reflexivity | reflexivity]. }
  assert (BB : Forall (fun b => same_block C (fst b) (snd b)) torch_plan).
  { assert (G : forall b s, In b ["0"; "1"; "2"; "3"; "4"; "5"; "6"; "7"]%string -> (s = 1%nat \/ In b ["0"; "1"]%string) -> same_block C b s).
    { intros b s Hb Hs. split; [| split].
      - apply converted_conv; [apply NB, Hb | intros p Hp; apply (tn_block b "conv1"%string p); [left; reflexivity | exact Hp] | discriminate | reflexivity | reflexivity].
      - apply converted_conv; [apply NB, Hb | intros p Hp; apply (tn_block b "conv2"%string p); [right; left; reflexivity | exact Hp] | discriminate | reflexivity | reflexivity].
      - destruct Hs as [-> | Hs]; [left; reflexivity | right].
        apply converted_conv; [apply NS, Hs | intros p Hp; apply (tn_block b "shortcut_conv"%string p); [right; right; left; reflexivity | exact Hp] | discriminate | reflexivity | reflexivity]. }
    unfold torch_plan. repeat (apply Forall_cons; [apply G; cbn [fst snd In]; tauto |]). apply Forall_nil. }
  destruct (from_checkpoint _ _ ["net"; "energy_linear"; "weight"]%string ND) as (K & w & E1 & S1 & E2 & E3); [apply tn_linear; left; reflexivity | discriminate | reflexivity |].
  destruct (from_checkpoint _ _ ["net"; "energy_linear"; "bias"]%string ND') as (b & b' & F1 & T1 & F2 & F3); [apply tn_linear; right; left; reflexivity | discriminate | reflexivity |].
  unfold converted in F3. cbn in F3. injection F3 as ->. unfold converted in E3. cbn [last String.eqb Ascii.eqb Bool.eqb] in E3.
  assert (HK : K = transpose2 w).
  { destruct (converted_spec ["Dense_0"; "kernel"]%string w K E3) as [G _]. destruct (G eq_refl) as [[L ->] | [_ ->]]; [| reflexivity].
    exfalso. cbn [transpose4 shape] in S1. destruct (shape w) as [| x1 [| x2 [| x3 [| x4 [| x5 l]]]]]; discriminate. }
  unfold resnet, torch_energy. rewrite HL, Nat.eqb_refl.
  destruct (sim_conv ["Conv_0"%string] ["net"; "proj"]%string 3 1 C 1 1 H W (image H W x) (fun _ r c => nth (r * W + c) x 0) B0) as (t & it & Et & Eit & St);
    [repeat split | lia | lia |]. rewrite Et, Eit. cbn [ob]. rewrite !out3, !shrunk1 in St by assumption.
  destruct (sim_blocks C torch_plan H W t it BB St HH HW) as (z & H' & W' & iz & Ez & Eiz & R1 & R2 & R3 & HV).
  change (map (fun b0 : string * nat => (("BasicBlock_" ++ fst b0)%string, snd b0)) torch_plan) with plan in Ez. rewrite Ez, Eiz, E1, E2, F1, F2. cbn [ob].
  unfold dense1. rewrite R3, (proj2 (shape_eqb_iff _ _) S1), (proj2 (shape_eqb_iff _ _) T1). cbn [andb]. eexists. split; [reflexivity |]. f_equal.
  rewrite HK, <- dense_same. unfold flax_dense. f_equal. apply rsum_ext. intros i _. f_equal. unfold pool. rewrite R1, R2. f_equal.
  apply rsum_ext. intros r _. apply rsum_ext. intros c _. symmetry. apply HV.
Qed.
End Converted.
