(** * Small steps of the optimizers (specification for C113, C114) *)
From Coq Require Import Reals.
From Verif Require Import Mem Scalar Lique Functions Optimizer Layer LayerSpec RealSpec ConvSpec NetSpec PoolSpec Net NetPlan NetReal DescentSpec.
Local Open Scope R_scope.

(** The optimizer classes as functions of the learning rate, with the constants their users choose.
    (StoGradDescent without decay; with decay see C113_weight_decay.) *)
Inductive optimizer_class : (R -> opt R) -> Prop :=
| class_gd : optimizer_class grad_descent
| class_sgd : optimizer_class (fun lr => sto_grad_descent lr 0)
| class_momentum mu : optimizer_class (fun lr => momentum_opt lr mu)
| class_nestorov mu : -1 < mu -> optimizer_class (fun lr => nestorov_opt lr mu)
| class_adagrad : optimizer_class ada_grad
| class_rmsprop beta : 0 <= beta <= 1 -> optimizer_class (fun lr => rms_prop lr beta)
| class_adam b1 b2 : 0 <= b1 < 1 -> 0 <= b2 < 1 -> optimizer_class (fun lr => adam lr b1 b2).
(** AdaGrad and RMSProp keep a sum of squared gradients per parameter. *)
Inductive keeps_squares : opt_kind R -> Prop :=
| squares_adagrad : keeps_squares AdaGrad
| squares_rmsprop beta : 0 <= beta <= 1 -> keeps_squares (RMSProp beta (1 - beta)).

(** The sum of the squares of all weights and biases. *)
Fixpoint sum_of_squares (th : model) : R :=
  match th with
  | [] => 0
  | (p, s) :: th =>
      match p with
      | PDense _ n k => rsum k (fun j => s RB j * s RB j) + rsum (n * k) (fun j => s (RW 0) j * s (RW 0) j)
      | PConv g => rsum (g_f g) (fun f => s RB f * s RB f) +
          rsum (g_f g) (fun f => rsum (g_d g * g_fh g * g_fw g) (fun j => s (RW f) j * s (RW f) j))
      | PPool _ _ => 0
      end + sum_of_squares th
  end.
(** The mean loss over the samples [is] with the L2 penalty of weight decay [c]. *)
Definition penalised (lo : loss) (c : R) (xs ys : Z -> Z -> R) (is : list Z) (th : model) : R :=
  mean_loss lo th xs ys is + c / 2 * sum_of_squares th.

(** No accumulator of squares that belongs to a weight or bias is negative. *)
Definition no_negative_square (th : model) (x : nat -> role -> Z -> R * R) : Prop :=
  forall i p s r j, nth_error th i = Some (p, s) -> is_param p r j -> 0 <= fst (x i r j).
(** What a program does with a trainer and its optimizer before it changes to a small rate. *)
Inductive use : Type :=
| TrainBatch (epochs : Z)                 (* trainer.batch(idata, odata, optimizer, epochs) *)
| TrainMiniBatch (epochs size : Z)        (* trainer.miniBatch(...) *)
| ChangeRate (rate : R).                  (* optimizer.learning_rate(rate) *)
Definition use_ok (u : use) : Prop := match u with TrainBatch E => (0 <= E)%Z | TrainMiniBatch E b => (0 <= E)%Z /\ (0 < b)%Z | ChangeRate _ => True end.
Fixpoint uses (addr : ptr -> Z) (t : trainer) (idata odata : list tensor) (us : list use) (N : net) (o : opt R) : M R (net * opt R) :=
  match us with
  | [] => ret (N, o)
  | TrainBatch E :: us => let* s := tr_batch addr N t idata odata o E in uses addr t idata odata us (fst s) (snd s)
  | TrainMiniBatch E b :: us => let* s := tr_mini_batch addr N t idata odata o E b in uses addr t idata odata us (fst s) (snd s)
  | ChangeRate r :: us => uses addr t idata odata us N (set_learning_rate o r)
  end.
