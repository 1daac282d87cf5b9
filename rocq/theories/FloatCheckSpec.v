(** * Vocabulary for the checker's losses in floating-point arithmetic (C133) *)
From Coq Require Import ZArith Reals List.
From Flocq Require Import Core BinarySingleNaN.
From Verif Require Import Mem Scalar Functions FunctionSpec RealSpec Float FloatSpec FloatGradSpec.
Local Open Scope R_scope.

Section Spec.
Context {prec emax : Z} {Hp : Prec_gt_0 prec} {He : Prec_lt_emax prec emax}.
Notation u := (uro prec).
Notation eta := (eta prec emax).

(** The logarithm of the math library is accurate to a relative error [c] (half of the smallest number near underflow).  For a correctly
    rounded library [c] = 2 unit roundoffs (PropFloatCheck.v). *)
Definition log_accurate (lib : libm prec emax) (c : R) : Prop :=
  forall x, fin x -> 0 < B2R x -> Rabs (B2R (l_log lib x) - ln (B2R x)) <= c * Rabs (ln (B2R x)) + eta.

(** What the losses MSE, MAE and CCE add up for one output, [t] the target and [p] the prediction. *)
Definition loss_term (lo : loss) (t p : R) : R :=
  match lo with MAE => Rabs (t - p) | CCE => t * ln (p + eps9) | _ => (t - p) ^ 2 end.
(** the error of t - p, and of p + 1e-9, for [p] known up to [e] *)
Definition gap (t p e : R) : R := e + u * (Rabs (t - p) + e).
Definition arg_err (p e : R) : R := e + u * (Rabs p + e + 3 * eps9).
(** the error of the logarithm of p + 1e-9 *)
Definition log_err (c p e : R) : R :=
  let q := p + eps9 in let d := arg_err p e / (q - arg_err p e) in d + c * (Rabs (ln q) + d) + eta.
Definition term_err (c : R) (lo : loss) (t p e : R) : R :=
  match lo with
  | MAE => gap t p e
  | CCE => prod_err (prec := prec) (emax := emax) t 0 (ln (p + eps9)) (log_err c p e)
  | _ => prod_err (prec := prec) (emax := emax) (t - p) (gap t p e) (t - p) (gap t p e)
  end.
(** Nothing comes near the largest number; the error of p + 1e-9 is less than p + 1e-9. *)
Definition product_room (a ea b eb : R) : Prop := let A := prod_size a ea b eb in A + roundings prec emax 1 1 A < big emax.
Definition term_room (c : R) (lo : loss) (t p e : R) : Prop :=
  match lo with
  | MAE => (Rabs (t - p) + e) * (1 + u) < big emax
  | CCE => arg_err p e < p + eps9 /\ p + eps9 + arg_err p e < big emax /\ product_room t 0 (ln (p + eps9)) (log_err c p e)
  | _ => (Rabs (t - p) + e) * (1 + u) < big emax /\ product_room (t - p) (gap t p e) (t - p) (gap t p e)
  end.

(** Adding up [n] numbers close to [g], each up to [d]. *)
Definition total_size (n : Z) (g d : Z -> R) : R := rsum n (fun i => Rabs (g i) + d i).
Definition total_err (n : Z) (g d : Z -> R) : R := rsum n d + roundings prec emax n 0 (total_size n g d).
Definition total_room (n : Z) (g d : Z -> R) : Prop := total_size n g d + roundings prec emax n 0 (total_size n g d) < big emax.

(** The loss of one sample: targets [t], exact predictions [p], computed predictions known up to [e] *)
Definition loss_error (c : R) (lo : loss) (n : Z) (t p e : Z -> R) : R :=
  let g i := loss_term lo (t i) (p i) in let d i := term_err c lo (t i) (p i) (e i) in
  match lo with MSE => prod_err (prec := prec) (emax := emax) (rsum n g) (total_err n g d) (/ 2) 0 | _ => total_err n g d end.
Definition loss_room (c : R) (lo : loss) (n : Z) (t p e : Z -> R) : Prop :=
  let g i := loss_term lo (t i) (p i) in let d i := term_err c lo (t i) (p i) (e i) in
  (forall i, (0 <= i < n)%Z -> term_room c lo (t i) (p i) (e i)) /\ total_room n g d /\
  match lo with MSE => product_room (rsum n g) (total_err n g d) (/ 2) 0 | _ => True end.
(** The mean of [n] numbers close to [g], each up to [d] *)
Definition mean_err (n : Z) (g d : Z -> R) : R := (total_err n g d + u * (Rabs (rsum n g) + total_err n g d)) / IZR n + eta.
End Spec.
