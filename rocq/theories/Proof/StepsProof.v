(** Step counters of the sampler states. *)
From Coq Require Import String Reals List Lra Lia Arith ZArith.
From Verif.Base Require Import XFloat.
From Verif.Model Require Import RandomWalk LocallyBalanced Gibbs GWG PathAux Langevin HammingBall.
Import ListNotations.

Lemma fold_steps {S I} (st : S -> nat) (up : I -> S -> S) : (forall i s, st (up i s) = Datatypes.S (st s)) ->
  forall hist s, st (fold_left (fun s i => up i s) hist s) = (st s + length hist)%nat.
Proof.
  intros H hist. induction hist as [|i hist IH]; intros s; cbn [fold_left length]; [lia|].
  rewrite IH, H. lia.
Qed.

Lemma fold_const {S I} (st : S -> nat) (up : I -> S -> S) : (forall i s, st (up i s) = st s) ->
  forall hist s, st (fold_left (fun s i => up i s) hist s) = st s.
Proof.
  intros H hist. induction hist as [|i hist IH]; intros s; cbn [fold_left]; [reflexivity|]. rewrite IH, H. reflexivity.
Qed.

Lemma l_update_steps c (p : xf * xf) s : l_steps (l_update c (fst p) (snd p) s) = S (l_steps s).
Proof. unfold l_update. destruct (orb (negb (lc_adaptive c)) (lc_co_opt c)); reflexivity. Qed.
