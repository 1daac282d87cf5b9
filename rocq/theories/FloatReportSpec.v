(** * Vocabulary for the loss reported before and after training in floating-point arithmetic (C134) *)
From Coq Require Import ZArith Reals List.
From Flocq Require Import Core BinarySingleNaN.
From Verif Require Import Mem Scalar Functions FunctionSpec LayerSpec RealSpec NetSpec ConvSpec NetPlan NetReal DescentSpec Float FloatSpec FloatNetSpec FloatGradSpec FloatDescentSpec FloatCheckSpec.
Import ListNotations.
Local Open Scope R_scope.

Section Spec.
Context {prec emax : Z} {Hp : Prec_gt_0 prec} {He : Prec_lt_emax prec emax}.
(** the exact loss of sample [i], and a bound on the error of the one computed *)
Definition exact_loss (lo : loss) (th : model) (xs ys : Z -> Z -> R) (i : Z) : R := std_loss lo (out_count (final_plan th)) (ys i) (real_net th (xs i)).
Definition computed_error (c : R) (lo : loss) (th : model) (xs ys : Z -> Z -> R) (i : Z) : R :=
  loss_error (prec := prec) (emax := emax) c lo (out_count (final_plan th)) (ys i) (real_net th (xs i)) (drift (prec := prec) (emax := emax) c th (xs i) no_error).
(** The mean loss of [th] over [n] samples is read without overflow (the conditions of C133 with exact inputs) ... *)
Definition reading_ok (c : R) (lo : loss) (n : Z) (th : model) (xs ys : Z -> Z -> R) : Prop :=
  (forall i, (0 <= i < n)%Z -> safe (prec := prec) (emax := emax) c th (xs i) no_error /\
     loss_room (prec := prec) (emax := emax) c lo (out_count (final_plan th)) (ys i) (real_net th (xs i)) (drift (prec := prec) (emax := emax) c th (xs i) no_error)) /\
  total_room (prec := prec) (emax := emax) n (exact_loss lo th xs ys) (computed_error c lo th xs ys).
(** ... and is off by at most this. *)
Definition reading_error (c : R) (lo : loss) (n : Z) (th : model) (xs ys : Z -> Z -> R) : R :=
  mean_err (prec := prec) (emax := emax) n (exact_loss lo th xs ys) (computed_error c lo th xs ys).

(** The squared length of the gradient of the mean loss, and of the bound on the errors of one round (C132). *)
Definition gradient_square (lo : loss) (th : model) (xs ys : Z -> Z -> R) (is : list Z) : R :=
  total 0 th (fun i r j => mean_gradient lo th xs ys is i r j * mean_gradient lo th xs ys is i r j).
Definition error_square (c : R) (lo : loss) (th : model) (xs ys : Z -> Z -> R) (is : list Z) (a : R) : R :=
  total 0 th (fun i r j => batch_error (prec := prec) (emax := emax) c lo th xs ys is a i r j * batch_error (prec := prec) (emax := emax) c lo th xs ys is a i r j).
End Spec.
(** The last layer does not use SoftMax (with which training minimises the cross-entropy, whatever the loss function). *)
Definition plain_end (p : plan) : Prop := match p with PDense SoftMax _ _ => False | _ => True end.
(** Two models with the same layers and the same parameters (they may differ in the contents of the working tensors). *)
Definition same_parameters (th th' : model) : Prop :=
  map fst th' = map fst th /\ forall i p r j, nth_error (map fst th) i = Some p -> is_param p r j -> param th' i r j = param th i r j.
