(** * A network as a function of its parameters and its input, over the reals (specification for C65) *)
From Coq Require Import Reals.
From Verif Require Import Mem Scalar Functions LayerSpec RealSpec ConvSpec NetSpec PoolSpec NetPlan PropConv.
Local Open Scope R_scope.

(** The function of one layer with the parameters in [s]: [s RB] the bias, [s (RW 0)] the weight matrix
    of a dense layer, [s (RW f)] filter [f] of a convolution. *)
Definition real_layer (p : plan) (s : contents R) (x : Z -> R) : Z -> R :=
  match p with
  | PDense (Functions.Scalar a) n k => dense a n k (s RB) (s (RW 0)) x
  | PDense SoftMax n k => std_softmax k (dense_pre n k (s RB) (s (RW 0)) x)
  | PConv g => correlate g (s RB) (fun f => s (RW f)) x
  | PPool a q => pool_out a q x
  end.
Definition model : Type := list (plan * contents R).
Definition real_net (l : model) (x : Z -> R) : Z -> R := fold_left (fun v d => real_layer (fst d) (snd d) v) l x.
(** The network with tensor [r] of layer number [i] replaced by [v]. *)
Fixpoint with_param (l : model) (i : nat) (r : role) (v : Z -> R) : model :=
  match l, i with
  | [], _ => []
  | (p, s) :: l, O => (p, set_role s r v) :: l
  | d :: l, S i => d :: with_param l i r v
  end.

(** Where the theorem applies: dense and convolution layers; the activations are those whose [df] is
    the derivative (C33: not GELU) and differentiable at the pre-activations met; SoftMax, whose [df] is
    not its derivative, only as the last layer (where C40 explains it). *)
Fixpoint smooth (l : model) (x : Z -> R) : Prop :=
  match l with
  | [] => True
  | (p, s) :: l' =>
      match p with
      | PDense (Functions.Scalar a) n k => a <> GELU /\ forall j, (0 <= j < k)%Z -> ~ corner a (dense_pre n k (s RB) (s (RW 0)) x j)
      | PDense SoftMax _ _ => l' = []
      | PConv _ => True
      | PPool _ _ => False
      end /\ smooth l' (real_layer p s x)
  end.
(** The internal buffer of each convolution is zero off the stride grid: so it is in a new layer, and so
    [backward] leaves it. *)
Definition clean (l : model) : Prop := Forall (fun d => match fst d with PConv g => off_grid_zero g (snd d) | _ => True end) l.

(** The loss of an output [y] of a network whose last layer has plan [p], with target [t]: the loss
    selected; with a SoftMax layer the cross entropy. *)
Definition net_loss (lo : loss) (p : plan) (t y : Z -> R) : R :=
  match p with
  | PDense SoftMax _ k => cross_entropy k t y
  | _ => std_loss lo (out_count p) t y
  end.
(** The losses for which [df] gives the derivative (C38, C40). *)
Definition loss_fits (lo : loss) (p : plan) (t y : Z -> R) : Prop :=
  match p with
  | PDense SoftMax _ k => (lo = CCE \/ lo = NLL) /\ rsum k t = 1
  | _ => lo = MSE \/ lo = LC \/ lo = MSLE /\ forall i, (0 <= i < out_count p)%Z -> -1 < t i /\ -1 < y i
  end.
