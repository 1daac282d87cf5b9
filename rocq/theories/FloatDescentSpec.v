(** * Vocabulary for gradient descent in floating-point arithmetic (C132) *)
From Coq Require Import ZArith Reals List.
From Flocq Require Import Core BinarySingleNaN.
From Verif Require Import Mem Scalar Functions FunctionSpec LayerSpec RealSpec NetSpec ConvSpec NetPlan NetReal DescentSpec Float FloatSpec FloatNetSpec FloatGradSpec.
Import ListNotations.
Local Open Scope R_scope.

(** ** exact arithmetic *)
(** The derivatives of the loss with respect to the inputs of [l], and those with respect to the biases and weights of layer [i], from those
    [d] with respect to the outputs of [l]. *)
Fixpoint exact_back (l : model) (x d : Z -> R) : Z -> R :=
  match l with (PDense a n k, s) :: l => delta_val a n k s x (exact_back l (real_layer (PDense a n k) s x) d) | _ => d end.
Fixpoint exact_gradient (l : model) (i : nat) (x d : Z -> R) : (Z -> R) * (Z -> R) :=
  match l with
  | (PDense a n k, s) :: l =>
      let y := real_layer (PDense a n k) s x in
      match i with
      | O => let d' := exact_back l y d in (bias_grad a n k s x d', weight_grad a n k s x d')
      | S i => exact_gradient l i y d
      end
  | _ => (fun _ => 0, fun _ => 0)
  end.
(** component [j] of tensor [r] of a pair (biases, weights) *)
Definition component (g : (Z -> R) * (Z -> R)) (r : role) (j : Z) : R := match r with RB => fst g j | _ => snd g j end.
Definition sample_gradient (lo : loss) (th : model) (x t : Z -> R) (i : nat) : role -> Z -> R :=
  component (exact_gradient th i x (loss_slope lo t (real_net th x))).
(** the sum over the samples [is] *)
Definition gradient_sum lo th (xs ys : Z -> Z -> R) (is : list Z) i r j : R := sum_over (fun k => sample_gradient lo th (xs k) (ys k) i r j) is.

(** One step against the gradient of [J] with learning rate [a], each parameter up to an error of [err]. *)
Definition inexact_step (J : model -> R) (a : R) (err : nat -> role -> Z -> R) (th th' : model) : Prop :=
  map fst th' = map fst th /\
  forall i p s, nth_error th i = Some (p, s) -> exists s', nth_error th' i = Some (p, s') /\
    forall r j, is_param p r j -> exists g, partial (fun v => J (with_param th i r v)) (s r) j g /\ Rabs (s' r j - (s r j - a * g)) <= err i r j.

(** The sum of [f] over all parameters of a network of dense layers, numbered from layer [i]. *)
Fixpoint total (i : nat) (th : model) (f : nat -> role -> Z -> R) : R :=
  match th with
  | [] => 0
  | (PDense _ n k, _) :: th => rsum k (f i RB) + rsum (n * k) (f i (RW 0)) + total (S i) th f
  | _ :: th => total (S i) th f
  end.
Definition param (th : model) (i : nat) (r : role) (j : Z) : R := match nth_error th i with Some (_, s) => s r j | None => 0 end.
Definition gradient_of (J : model -> R) (th : model) (G : nat -> role -> Z -> R) : Prop :=
  forall i p s r j, nth_error th i = Some (p, s) -> is_param p r j -> partial (fun v => J (with_param th i r v)) (s r) j (G i r j).
(** From [th] to [th'] the loss bends upwards at most as much as a parabola of curvature [L] (so for all [th'] if the gradient of the loss is
    L-Lipschitz). *)
Definition bends_at_most (L : R) (J : model -> R) (th th' : model) : Prop :=
  forall G, gradient_of J th G ->
  J th' <= J th + total 0 th (fun i r j => G i r j * (param th' i r j - param th i r j)) +
    L / 2 * total 0 th (fun i r j => (param th' i r j - param th i r j) * (param th' i r j - param th i r j)).

Section Spec.
Context {prec emax : Z} {Hp : Prec_gt_0 prec} {He : Prec_lt_emax prec emax}.
Notation u := (uro prec).
Notation eta := (eta prec emax).
Definition no_error (i : Z) : R := 0.

(** ** one sample *)
(** The gradient on the sample is covered by C131 (inputs exact). *)
Definition sample_ok (c : R) (lo : loss) (th : model) (x t : Z -> R) : Prop :=
  let y := real_net th x in let ey := drift (prec := prec) (emax := emax) c th x no_error in
  lo <> MSLE /\ smooth th x /\ loss_fits lo (final_plan th) t y /\ safe (prec := prec) (emax := emax) c th x no_error /\
  (forall j, (0 <= j < out_count (final_plan th))%Z -> loss_size t y ey j * (1 + u) < big emax) /\
  back_safe (prec := prec) (emax := emax) c false th x no_error (loss_slope lo t y) (loss_err (prec := prec) c lo t y ey).
Definition sample_error (c : R) (lo : loss) (th : model) (x t : Z -> R) (i : nat) : role -> Z -> R :=
  let y := real_net th x in let ey := drift (prec := prec) (emax := emax) c th x no_error in
  component (gradient_err (prec := prec) (emax := emax) c th i x no_error (loss_slope lo t y) (loss_err (prec := prec) c lo t y ey)).

(** ** the update p - g * a of a parameter p, the gradient g known up to e *)
Definition update_error (a p g e : R) : R := let m := prod_err (prec := prec) (emax := emax) g e a 0 in m + u * (Rabs (p - g * a) + m).
Definition update_room (a p g e : R) : Prop :=
  (let A := prod_size g e a 0 in A + roundings prec emax 1 1 A < big emax) /\
  (Rabs (p - g * a) + prod_err (prec := prec) (emax := emax) g e a 0) * (1 + u) < big emax.
(** stochastic training *)
Definition stochastic_error c lo th x t (a : R) i r j : R := update_error a (param th i r j) (sample_gradient lo th x t i r j) (sample_error c lo th x t i r j).
Definition stochastic_ok c lo th x t (a : R) : Prop :=
  sample_ok c lo th x t /\
  forall i p s r j, nth_error th i = Some (p, s) -> is_param p r j -> update_room a (s r j) (sample_gradient lo th x t i r j) (sample_error c lo th x t i r j).

(** ** a batch of samples [is] *)
(** the gradients of the samples added up *)
Definition sum_size c lo th (xs ys : Z -> Z -> R) (is : list Z) i r j : R :=
  sum_over (fun k => Rabs (sample_gradient lo th (xs k) (ys k) i r j) + sample_error c lo th (xs k) (ys k) i r j) is.
Definition sum_error c lo th (xs ys : Z -> Z -> R) (is : list Z) i r j : R :=
  sum_over (fun k => sample_error c lo th (xs k) (ys k) i r j) is + ((1 + u) ^ length is - 1) * sum_size c lo th xs ys is i r j.
(** times the computed inverse of their number *)
Definition mean_error c lo th xs ys is i r j : R :=
  prod_err (prec := prec) (emax := emax) (gradient_sum lo th xs ys is i r j) (sum_error c lo th xs ys is i r j) (/ INR (length is)) (u * / INR (length is) + eta).
Definition mean_gradient lo th xs ys is i r j : R := gradient_sum lo th xs ys is i r j * / INR (length is).
Definition batch_error c lo th xs ys is (a : R) i r j : R := update_error a (param th i r j) (mean_gradient lo th xs ys is i r j) (mean_error c lo th xs ys is i r j).
Definition batch_ok c lo th xs ys is (a : R) : Prop :=
  (1 <= Z.of_nat (length is) <= 2 ^ prec)%Z /\ (forall k, In k is -> sample_ok c lo th (xs k) (ys k)) /\
  forall i p s r j, nth_error th i = Some (p, s) -> is_param p r j ->
    sum_size c lo th xs ys is i r j * (1 + u) ^ length is < big emax /\
    (let A := prod_size (gradient_sum lo th xs ys is i r j) (sum_error c lo th xs ys is i r j) (/ INR (length is)) (u * / INR (length is) + eta) in
     A + roundings prec emax 1 1 A < big emax) /\
    update_room a (s r j) (mean_gradient lo th xs ys is i r j) (mean_error c lo th xs ys is i r j).

(** ** a training call: the networks [ths] after every round (every step), as long as every round so far was covered *)
Fixpoint follows c lo (xs ys : Z -> Z -> R) (a : R) (iss : list (list Z)) (ths : list model) : Prop :=
  match iss, ths with
  | [], [_] => True
  | is :: iss, th :: ((th1 :: _) as rest) =>
      batch_ok c lo th xs ys is a -> inexact_step (fun th => mean_loss lo th xs ys is) a (batch_error c lo th xs ys is a) th th1 /\ follows c lo xs ys a iss rest
  | _, _ => False
  end.
Fixpoint follows_samples c lo (xs ys : Z -> Z -> R) (a : R) (is : list Z) (ths : list model) : Prop :=
  match is, ths with
  | [], [_] => True
  | k :: is, th :: ((th1 :: _) as rest) =>
      stochastic_ok c lo th (xs k) (ys k) a ->
      inexact_step (fun th => sample_loss lo th (xs k) (ys k)) a (stochastic_error c lo th (xs k) (ys k) a) th th1 /\ follows_samples c lo xs ys a is rest
  | _, _ => False
  end.
(** the inputs and targets of the first [n] samples are finite numbers *)
Definition finite_data (l : list (node (fl prec emax))) (xs ys : Z -> Z -> fl prec emax) (n : Z) : Prop := forall k, (0 <= k < n)%Z ->
  (forall o, (0 <= o < match plans l with p :: _ => in_count p | [] => 0 end)%Z -> fin (xs k o)) /\
  (forall o, (0 <= o < out_count (last (plans l) (PConv (mk_geometry 0 0 0 0 0 0 0 0 0))))%Z -> fin (ys k o)).
End Spec.

(** [P] holds of every two consecutive elements of a list. *)
Fixpoint consecutive {A} (P : A -> A -> Prop) (l : list A) : Prop := match l with x :: ((y :: _) as rest) => P x y /\ consecutive P rest | _ => True end.
