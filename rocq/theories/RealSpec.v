(** * Textbook formulas over the reals (specification; no reference to the model's formulas) *)
From Coq Require Import Reals.
From Verif Require Import Mem Scalar Functions.
Local Open Scope R_scope.

(** [f 0 + ... + f (n-1)] *)
Definition rsum (n : Z) (f : Z -> R) : R := zsum (T := R) (H := Num_R) n f.

(** [x] with component [i] replaced by [v], and the partial derivative of [F] at [x] *)
Definition upd (x : Z -> R) (i : Z) (v : R) : Z -> R := fun k => if (k =? i)%Z then v else x k.
Definition partial (F : (Z -> R) -> R) (x : Z -> R) (i : Z) (d : R) : Prop :=
  derivable_pt_lim (fun v => F (upd x i v)) (x i) d.

(** activations *)
Definition std_act (a : scalar_activation) (x : R) : R :=
  match a with
  | Identity => x
  | ReLU => Rmax 0 x
  | ELU => if Rlt_dec 0 x then x else 0.2 * (exp x - 1)
  | LReLU => if Rlt_dec 0 x then x else 0.01 * x
  | SELU => if Rlt_dec 0 x then 1.050701 * x else 1.758099 * (exp x - 1)
  | GELU => x / 2 * (1 + tanh (0.797885 * x + 0.0356774 * x ^ 3))
  | Sigmoid => 1 / (1 + exp (- x))
  | Tanh => (exp x - exp (- x)) / (exp x + exp (- x))
  | SoftSign => x / (1 + Rabs x)
  | SoftPlus => ln (1 + exp x)
  | Swish => x * (1 / (1 + exp (- x)))
  | ModRelu => if Rlt_dec x 0 then 0.01 * x else if Rlt_dec 1 x then 0.99 + 0.01 * x else x
  | ModTanh => if Rlt_dec x 0 then 0.01 * tanh x else tanh x
  end.
(** where the piecewise activations have a corner *)
Definition corner (a : scalar_activation) (x : R) : Prop :=
  match a with
  | ReLU | ELU | LReLU | SELU | ModTanh => x = 0
  | ModRelu => x = 0 \/ x = 1
  | _ => False
  end.
Definition std_softmax (n : Z) (x : Z -> R) (i : Z) : R := exp (x i) / rsum n (fun j => exp (x j)).

(** losses of a target [t] and a prediction [p] of length [n] *)
Definition eps9 : R := / 10 ^ 9.
Definition std_loss (l : loss) (n : Z) (t p : Z -> R) : R :=
  match l with
  | MSE => / 2 * rsum n (fun i => (t i - p i) ^ 2)
  | MAE => rsum n (fun i => Rabs (t i - p i))
  | CCE => - rsum n (fun i => t i * ln (p i + eps9))
  | BCE => - rsum n (fun i => t i * ln (p i + eps9) + (1 - t i) * ln (1 - p i + eps9))
  | MSLE => / 2 * rsum n (fun i => (ln ((1 + p i) / (1 + t i))) ^ 2)
  | NLL => - ln (rsum n (fun i => t i * p i))
  | LC => rsum n (fun i => ln (cosh (p i - t i)))
  end.
(** the cross entropies without the guard epsilon *)
Definition cross_entropy (n : Z) (t p : Z -> R) : R := - rsum n (fun i => t i * ln (p i)).
Definition binary_cross_entropy (t p : R) : R := - (t * ln p + (1 - t) * ln (1 - p)).
(** exact arithmetic in which [exp] of a positive argument (an overflow risk) may give any result
    [e x], and division by zero any result *)
Definition Num_Rexp (e : R -> R) (junk : R -> R) : Num R := {|
  zero := 0%R; one := 1%R;
  add := Rplus; sub := Rminus; mul := Rmult;
  div := (fun x y => if Req_EM_T y 0 then junk x else x / y)%R; opp := Ropp;
  ltb := Rltb; eqb := Reqb; nabs := Rabs;
  nsqrt := sqrt; nexp := (fun x => if Rlt_dec 0 x then e x else exp x); nexpm1 := (fun x => exp x - 1)%R;
  nlog := ln; nlog1p := (fun x => ln (1 + x))%R;
  ntanh := tanh; ncosh := cosh; npow := Rpower_c;
  lit := Q2R; ofZ := IZR |}.
