(** * Vocabulary for training in floating-point arithmetic (C125) *)
From Coq Require Import ZArith Reals List.
From Flocq Require Import Core BinarySingleNaN.
From Verif Require Import Mem Scalar MemSpec Lique Functions Optimizer Layer LayerSpec NetPlan Net PropNet OptTrainSpec SessionSpec Float FloatSpec.
Import ListNotations.
Local Open Scope Z_scope.

(** ** Exponents: how large the numbers of a training run can get

    All of it is arithmetic on integers: every quantity of a run is at most two to the power of the
    exponent computed here.  The parameters of a layer are assumed to be at most 2^J, with a J for each layer. *)
Section Exponents.
Context (prec emax : Z).
(** A sum of [n] rounded terms of magnitude at most 2^k is at most 2^(k + grow n): n times as large,
    and never more than 2^(prec+1) times (at that size further terms are lost to rounding). *)
Definition grow (n : Z) : Z := Z.min (Z.log2_up n) (prec + 1).
(** The activations covered; the derivatives of GELU and Swish and the values of SoftPlus overflow (C94, C95). *)
Definition tame (a : activation) (k : Z) : Prop :=
  match a with
  | Scalar GELU | Scalar SoftPlus | Scalar Swish => False
  | Scalar _ => True
  | SoftMax => 0 < k
  end.
(** the value of an activation on numbers of at most 2^z, its derivative *)
Definition act_exp (a : activation) (z : Z) : Z :=
  match a with
  | Scalar Sigmoid | Scalar Tanh | Scalar SoftSign | Scalar ModTanh | SoftMax => 0
  | Scalar SELU | Scalar ELU | Scalar ModRelu => z + 1
  | _ => z
  end.
Definition slope_exp (a : activation) : Z := match a with Scalar SELU => 1 | _ => 0 end.
(** the derivative of the loss for targets of at most 2^t and predictions of at most 2^p; MSLE (the logarithm of a negative number) is not covered *)
Definition loss_exp (lo : loss) (t p : Z) : option Z :=
  match lo with
  | MSE | CCE | NLL => Some (Z.max t p + 1)
  | MAE | LC => Some 0
  | BCE => Some (t + p + 2)
  | MSLE => None
  end.
(** a dense layer: pre-activations and outputs for [n] inputs of at most 2^e *)
Definition pre_exp (J e n : Z) : Z := J + e + grow n + 1.
(** what the layers [ps], with parameters of at most 2^J, J from the list [Js], hand back (the derivative
    of the loss with respect to their inputs), for inputs of at most 2^e *)
Fixpoint delta_exp (Js : list Z) (lo : loss) (t e : Z) (ps : list plan) : Z :=
  match Js, ps with
  | J :: Js, PDense a n k :: ps => J + (slope_exp a + delta_exp Js lo t (act_exp a (pre_exp J e n)) ps) + grow k
  | _, _ => match loss_exp lo t e with Some d => d | None => 0 end
  end.
(** the gradients of the parameters of each layer, summed over at most [B] samples *)
Fixpoint grad_exps (Js : list Z) (lo : loss) (t B e : Z) (ps : list plan) : list Z :=
  match Js, ps with
  | J :: Js, PDense a n k :: ps =>
      let z := pre_exp J e n in
      (e + (slope_exp a + delta_exp Js lo t (act_exp a z) ps) + grow B) :: grad_exps Js lo t B (act_exp a z) ps
  | _, _ => []
  end.
(** No overflow in a pass over the layers [ps], nor in the sum of the gradients of [B] samples. *)
Fixpoint headroom (Js : list Z) (lo : loss) (t B e : Z) (ps : list plan) : Prop :=
  match Js, ps with
  | [], [] => exists d, loss_exp lo t e = Some d /\ d < emax
  | J :: Js, PDense a n k :: ps =>
      let z := pre_exp J e n in
      let g := slope_exp a + delta_exp Js lo t (act_exp a z) ps in
      0 <= J /\ tame a k /\ z < emax /\ act_exp a z < emax /\ e + g + grow B < emax /\ J + g + grow k < emax /\ headroom Js lo t B (act_exp a z) ps
  | _, _ => False
  end.
End Exponents.

(** [x] is finite and of magnitude at most 2^k. *)
Definition upto {prec emax : Z} {Hp : Prec_gt_0 prec} {He : Prec_lt_emax prec emax} (k : Z) (x : fl prec emax) : Prop := fin x /\ (Rabs (B2R x) <= bpow radix2 k)%R.

(** ** States *)
Section States.
Context {prec emax : Z} {Hp : Prec_gt_0 prec} {He : Prec_lt_emax prec emax}.
Notation fl := (fl prec emax).
(** all parameters of layer i are in memory, with values of at most 2^J, J from the list *)
Definition params_upto (m : mem fl) (l : list (node fl)) (Js : list Z) : Prop :=
  forall i r p J, param_tensor l i r p -> nth_error Js i = Some J -> exists v, holds m (t_data p) (t_size p) v /\ forall j, 0 <= j < t_size p -> upto J (v j).
(** no gradient sums are pending *)
Definition no_sums (l : list (node fl)) : Prop := Forall (fun L => match L with LFC L => f_acc L = false | _ => True end) (layers l).
(** inputs of at most 2^e, targets of at most 2^t *)
Definition data_upto (idata : list tensor) (k : Z) (xs ys : Z -> Z -> fl) (e t : Z) : Prop :=
  forall i x, 0 <= i < Z.of_nat (length idata) -> znth idata i = Some x -> (forall j, 0 <= j < t_size x -> upto e (xs i j)) /\ (forall j, 0 <= j < k -> upto t (ys i j)).
(** The network predicts finite numbers for all inputs of at most 2^e. *)
Definition finite_predictions (lib : libm prec emax) (m : mem fl) (l : list (node fl)) (e : Z) : Prop :=
  let NF := Num_fl prec emax lib in
  forall x v, sample_at m l x v -> (forall j, 0 <= j < t_size x -> upto e (v j)) ->
  exists y m' w, net_feedforward (layers l) x m = Ok (y, m') /\ holds m' (t_data y) (t_size y) w /\ forall j, 0 <= j < t_size y -> fin (w j).
(** number of samples a call sums gradients over *)
Definition round_size (n : Z) (c : call fl) : Z := match c with Batch _ => n | MiniBatch _ b => b | _ => 1 end.
End States.
