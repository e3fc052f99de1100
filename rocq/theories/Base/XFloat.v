(** Extended floats: reals without rounding plus the IEEE special values, with the IEEE/NumPy rules for
    the operations the repository uses.  (Signed zeros are not distinguished.) *)
From Coq Require Import Reals Lra.
Local Open Scope R_scope.

Inductive xf : Type := Fin (r : R) | PInf | NInf | NaN.

Definition is_fin (x : xf) : Prop := exists r, x = Fin r.

(** IEEE [<]: false as soon as NaN is involved. *)
Definition xltb (a b : xf) : bool :=
  match a, b with
  | NaN, _ | _, NaN => false
  | Fin x, Fin y => if Rlt_dec x y then true else false
  | NInf, NInf => false
  | NInf, _ => true
  | _, NInf => false
  | PInf, _ => false
  | _, PInf => true
  end.

Definition xneg (a : xf) : xf :=
  match a with Fin x => Fin (- x) | PInf => NInf | NInf => PInf | NaN => NaN end.

Definition xadd (a b : xf) : xf :=
  match a, b with
  | NaN, _ | _, NaN => NaN
  | Fin x, Fin y => Fin (x + y)
  | PInf, NInf | NInf, PInf => NaN
  | PInf, _ | _, PInf => PInf
  | NInf, _ | _, NInf => NInf
  end.

Definition xsub (a b : xf) : xf := xadd a (xneg b).

Definition xmul (a b : xf) : xf :=
  match a, b with
  | NaN, _ | _, NaN => NaN
  | Fin x, Fin y => Fin (x * y)
  | Fin x, PInf | PInf, Fin x =>
      if Rlt_dec 0 x then PInf else if Rlt_dec x 0 then NInf else NaN
  | Fin x, NInf | NInf, Fin x =>
      if Rlt_dec 0 x then NInf else if Rlt_dec x 0 then PInf else NaN
  | PInf, PInf | NInf, NInf => PInf
  | PInf, NInf | NInf, PInf => NInf
  end.

Definition xabs (a : xf) : xf :=
  match a with Fin x => Fin (Rabs x) | NaN => NaN | _ => PInf end.

Definition xexp (a : xf) : xf :=
  match a with Fin x => Fin (exp x) | PInf => PInf | NInf => Fin 0 | NaN => NaN end.

Definition xlog (a : xf) : xf :=
  match a with
  | Fin x => if Rlt_dec 0 x then Fin (ln x) else if Rlt_dec x 0 then NaN else NInf
  | PInf => PInf
  | NInf => NaN
  | NaN => NaN
  end.

(** [log1p x = log (1 + x)], [expm1 x = exp x - 1]. *)
Definition xlog1p (a : xf) : xf := xlog (xadd (Fin 1) a).
Definition xexpm1 (a : xf) : xf := xsub (xexp a) (Fin 1).

(** NumPy/JAX maximum and minimum propagate NaN. *)
Definition xmax (a b : xf) : xf :=
  match a, b with
  | NaN, _ | _, NaN => NaN
  | _, _ => if xltb a b then b else a
  end.
Definition xmin (a b : xf) : xf :=
  match a, b with
  | NaN, _ | _, NaN => NaN
  | _, _ => if xltb b a then b else a
  end.

Lemma xlog_pos r : 0 < r -> xlog (Fin r) = Fin (ln r).
Proof. intros H; simpl. destruct (Rlt_dec 0 r); [reflexivity|contradiction]. Qed.
Lemma xlog_0 : xlog (Fin 0) = NInf.
Proof. simpl. destruct (Rlt_dec 0 0); [lra|]. reflexivity. Qed.
Lemma xlog_neg r : r < 0 -> xlog (Fin r) = NaN.
Proof.
  intros H; simpl. destruct (Rlt_dec 0 r); [lra|]. destruct (Rlt_dec r 0); [reflexivity|contradiction].
Qed.
Lemma xmin_fin a b : xmin (Fin a) (Fin b) = Fin (Rmin a b).
Proof.
  unfold xmin, xltb, Rmin. destruct (Rlt_dec b a), (Rle_dec a b); f_equal; lra.
Qed.
Lemma xmax_fin a b : xmax (Fin a) (Fin b) = Fin (Rmax a b).
Proof.
  unfold xmax, xltb, Rmax. destruct (Rlt_dec a b), (Rle_dec a b); f_equal; lra.
Qed.
