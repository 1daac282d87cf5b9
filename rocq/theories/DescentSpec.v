(** * Gradient descent on the mean loss (specification for C90, C91) *)
From Coq Require Import Reals.
From Verif Require Import Mem Scalar Functions LayerSpec RealSpec ConvSpec NetSpec PoolSpec NetPlan NetReal.
Local Open Scope R_scope.

(** The loss of the network [th] (plans and parameters) on input [x] with target [y]; the mean over
    samples number [is] of inputs [xs] and targets [ys]. *)
Definition final_plan (th : model) : plan := last (map fst th) (PConv (mk_geometry 0 0 0 0 0 0 0 0 0)).
Definition sample_loss (lo : loss) (th : model) (x y : Z -> R) : R := net_loss lo (final_plan th) y (real_net th x).
Definition sum_over {A} (f : A -> R) (l : list A) : R := fold_right (fun a r => f a + r) 0 l.
Definition mean_loss (lo : loss) (th : model) (xs ys : Z -> Z -> R) (is : list Z) : R :=
  sum_over (fun i => sample_loss lo th (xs i) (ys i)) is / INR (length is).
(** The samples are where the loss is differentiable (see [smooth], [loss_fits]). *)
Definition smooth_on (lo : loss) (th : model) (xs ys : Z -> Z -> R) (is : list Z) : Prop :=
  forall i, In i is -> smooth th (xs i) /\ loss_fits lo (final_plan th) (ys i) (real_net th (xs i)).

(** Component [j] of tensor [r] is a parameter of a layer with plan [p]. *)
Definition is_param (p : plan) (r : role) (j : Z) : Prop :=
  match p, r with
  | PDense _ n k, RB => (0 <= j < k)%Z
  | PDense _ n k, RW f => f = 0%Z /\ (0 <= j < n * k)%Z
  | PConv g, RB => (0 <= j < g_f g)%Z
  | PConv g, RW f => (0 <= f < g_f g)%Z /\ (0 <= j < g_d g * g_fh g * g_fw g)%Z
  | _, _ => False
  end.
Definition is_dense (p : plan) : Prop := match p with PDense _ _ _ => True | _ => False end.
(** where a convolution keeps the gradient of tensor [r] *)
Definition grad_role (r : role) : role := match r with RB => RGradB | RW f => RGradW f | r => r end.

(** [th'] is [th] after one step against the gradient of [J] with learning rate [lr]: every parameter
    moves by [lr] times the partial derivative of [J].  A convolution moves further, by [lr] times [c]
    times what its gradient tensors held ([c] = 1 over the number of samples), which afterwards hold
    the displacement. *)
Definition descent_step (J : model -> R) (lr c : R) (th th' : model) : Prop :=
  map fst th' = map fst th /\
  forall i p s, nth_error th i = Some (p, s) -> exists s', nth_error th' i = Some (p, s') /\
    forall r j, is_param p r j -> exists g, partial (fun v => J (with_param th i r v)) (s r) j g /\
      match p with
      | PConv _ => s' r j = s r j - lr * (g + c * s (grad_role r) j) /\ s' (grad_role r) j = lr * (g + c * s (grad_role r) j)
      | _ => s' r j = s r j - lr * g
      end.
(** A sequence of such steps, one per batch of [iss]. *)
Fixpoint descends (lo : loss) (xs ys : Z -> Z -> R) (lr : R) (iss : list (list Z)) (th th' : model) : Prop :=
  match iss with
  | [] => th' = th
  | is :: iss => exists th1,
      (smooth_on lo th xs ys is -> descent_step (fun th => mean_loss lo th xs ys is) lr (/ INR (length is)) th th1) /\
      descends lo xs ys lr iss th1 th'
  end.
(** The gradient of [J] at [th] is not zero. *)
Definition not_stationary (J : model -> R) (th : model) : Prop :=
  exists i p s r j g, nth_error th i = Some (p, s) /\ is_param p r j /\ partial (fun v => J (with_param th i r v)) (s r) j g /\ g <> 0.
(** The gradient tensors of the convolutions are zero. *)
Definition no_velocity (th : model) : Prop := forall i p s r j, nth_error th i = Some (p, s) -> is_param p r j ->
  match p with PConv _ => s (grad_role r) j = 0 | _ => True end.
