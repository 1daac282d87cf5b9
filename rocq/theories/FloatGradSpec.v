(** * Vocabulary for the error of computed gradients of a whole network in floating-point arithmetic (C131) *)
From Coq Require Import ZArith Reals List.
From Flocq Require Import Core BinarySingleNaN.
From Verif Require Import Mem Scalar Functions FunctionSpec LayerSpec RealSpec NetSpec NetPlan NetReal Float FloatSpec FloatNetSpec.
Import ListNotations.
Local Open Scope R_scope.

Section Spec.
Context {prec emax : Z} {Hp : Prec_gt_0 prec} {He : Prec_lt_emax prec emax}.
Notation fl := (fl prec emax).
Notation u := (uro prec).
Notation eta := (eta prec emax).

(** The hyperbolic cosine of the C math library, used by the derivatives of sigmoid and tanh: relative error [c], no overflow below half
    the range. *)
Record cosh_accurate (lib : libm prec emax) (c : R) : Prop := {
  h_cosh : forall x, fin x -> fin (l_cosh lib x) -> Rabs (B2R (l_cosh lib x) - cosh (B2R x)) <= c * cosh (B2R x);
  h_over : forall x, fin x -> ~ fin (l_cosh lib x) -> big emax / 2 <= cosh (B2R x)
}.

(** The slope of an activation at the pre-activation [z]: the derivative (C33), 1 for SoftMax (C40 explains why). *)
Definition act_slope (a : activation) (z : R) : R := match a with Functions.Scalar a => scalar_df (NT := Num_R) a z | SoftMax => 1 end.
(** the activations whose slope is covered *)
Definition slope_covered (a : activation) : Prop :=
  match a with Functions.Scalar a => a <> GELU /\ a <> SELU /\ a <> SoftPlus /\ a <> Swish | SoftMax => True end.
(** by how much the slope magnifies a difference between pre-activations on the same side of the corners *)
Definition slope_gain (a : scalar_activation) : R := match a with ELU => / 5 | Sigmoid => / 4 | Tanh | ModTanh | SoftSign => 2 | _ => 0 end.
(** the error of the computed slope itself *)
Definition slope_noise (c : R) (a : scalar_activation) : R :=
  match a with
  | LReLU | ModRelu => u
  | ELU => c + 3 * u
  | Sigmoid => c + 2 * u
  | Tanh | ModTanh => 2 * c + 6 * u
  | SoftSign => 9 * u
  | _ => 0
  end.
Definition slope_err (c : R) (a : activation) (d : R) : R := match a with Functions.Scalar a => slope_gain a * d + slope_noise c a | SoftMax => 0 end.

(** a product of [a], known up to [ea], and [b], known up to [eb]: its size and its error *)
Definition prod_size (a ea b eb : R) : R := (Rabs a + ea) * (Rabs b + eb).
Definition prod_err (a ea b eb : R) : R := ea * (Rabs b + eb) + Rabs a * eb + roundings prec emax 1 1 (prod_size a ea b eb).

(** One dense layer with [n] inputs [x], known up to [e], and [k] outputs; the derivative of the loss with respect to its outputs is [d],
    known up to [ed]. *)
Section Layer.
Context (c : R) (a : activation) (n k : Z) (s : contents R) (x e d ed : Z -> R).
Definition pre : Z -> R := dense_pre n k (s RB) (s (RW 0)) x.
Definition pre_err (j : Z) : R :=
  let p := PDense a n k in spread p s e j + rounds (prec := prec) (emax := emax) p (magnitude p s x e j).
(** the derivative with respect to bias [j] and the error of the computed one *)
Definition bias_grad (j : Z) : R := act_slope a (pre j) * d j.
Definition bias_err (j : Z) : R := prod_err (act_slope a (pre j)) (slope_err c a (pre_err j)) (d j) (ed j).
(** the error of the derivative with respect to weight [o] (input [o / k], output [o mod k]) *)
Definition weight_grad (o : Z) : R := x (o / k)%Z * bias_grad (o mod k).
Definition weight_err (o : Z) : R := prod_err (x (o / k)%Z) (e (o / k)%Z) (bias_grad (o mod k)) (bias_err (o mod k)).
(** the derivative with respect to input [i], passed on to the previous layer, and its error *)
Definition delta_val (i : Z) : R := rsum k (fun j => s (RW 0) (i * k + j)%Z * bias_grad j).
Definition delta_size (i : Z) : R := rsum k (fun j => Rabs (s (RW 0) (i * k + j)%Z) * (Rabs (bias_grad j) + bias_err j)).
Definition delta_err (i : Z) : R := rsum k (fun j => Rabs (s (RW 0) (i * k + j)%Z) * bias_err j) + roundings prec emax (k + 1) k (delta_size i).
(** nothing overflows, and rounding cannot move a pre-activation across a corner of the activation *)
Definition layer_back_safe (full : bool) : Prop :=
  slope_covered a /\
  (forall j, (0 <= j < k)%Z -> match a with Functions.Scalar a => forall z, Rabs (z - pre j) <= pre_err j -> ~ corner a z | SoftMax => True end) /\
  (forall j, (0 <= j < k)%Z -> let A := prod_size (act_slope a (pre j)) (slope_err c a (pre_err j)) (d j) (ed j) in A + roundings prec emax 1 1 A < big emax) /\
  (forall o, (0 <= o < n * k)%Z -> let A := prod_size (x (o / k)%Z) (e (o / k)%Z) (bias_grad (o mod k)) (bias_err (o mod k)) in A + roundings prec emax 1 1 A < big emax) /\
  (full = true -> forall i, (0 <= i < n)%Z -> delta_size i + roundings prec emax (k + 1) k (delta_size i) < big emax).
End Layer.

(** The network: the derivative of the loss with respect to the inputs of [l], and its error, from those with respect to the outputs. *)
Fixpoint back (c : R) (l : model) (x e d ed : Z -> R) : (Z -> R) * (Z -> R) :=
  match l with
  | (PDense a n k, s) :: l =>
      let '(d', ed') := back c l (real_layer (PDense a n k) s x) (layer_drift (prec := prec) (emax := emax) c (PDense a n k) s x e) d ed in
      (delta_val a n k s x d', delta_err c a n k s x e d' ed')
  | _ => (d, ed)
  end.
Fixpoint back_safe (c : R) (full : bool) (l : model) (x e d ed : Z -> R) : Prop :=
  match l with
  | [] => True
  | (PDense a n k, s) :: l =>
      let y := real_layer (PDense a n k) s x in let ey := layer_drift (prec := prec) (emax := emax) c (PDense a n k) s x e in
      layer_back_safe c a n k s x e (fst (back c l y ey d ed)) (snd (back c l y ey d ed)) full /\ back_safe c true l y ey d ed
  | _ => False
  end.
(** the errors of the gradients of the biases and of the weights of layer number [i] *)
Fixpoint gradient_err (c : R) (l : model) (i : nat) (x e d ed : Z -> R) : (Z -> R) * (Z -> R) :=
  match l with
  | (PDense a n k, s) :: l =>
      let y := real_layer (PDense a n k) s x in let ey := layer_drift (prec := prec) (emax := emax) c (PDense a n k) s x e in
      match i with
      | O => let '(d', ed') := back c l y ey d ed in (bias_err c a n k s x e d' ed', weight_err c a n k s x e d' ed')
      | S i => gradient_err c l i y ey d ed
      end
  | _ => (fun _ => 0, fun _ => 0)
  end.

(** The derivative of the loss at outputs [y], known up to [e], with targets [t], and the error of the computed one; for MSE and LC, and for
    CCE and NLL behind SoftMax (where it is meant with respect to the pre-activations, C40). *)
Definition loss_slope (lo : loss) (t y : Z -> R) (j : Z) : R := match lo with LC => tanh (y j - t j) | _ => y j - t j end.
Definition loss_size (t y e : Z -> R) (j : Z) : R := Rabs (y j - t j) + e j.
Definition loss_err (c : R) (lo : loss) (t y e : Z -> R) (j : Z) : R := e j + u * loss_size t y e j + match lo with LC => c | _ => 0 end.
End Spec.
