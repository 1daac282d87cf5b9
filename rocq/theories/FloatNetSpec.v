(** * Vocabulary for the error of a whole network in floating-point arithmetic (C115, C116) *)
From Coq Require Import ZArith Reals List.
From Flocq Require Import Core BinarySingleNaN.
From Verif Require Import Mem Scalar Functions FunctionSpec LayerSpec RealSpec ConvSpec NetSpec PoolSpec NetPlan NetReal Float FloatSpec.
Import ListNotations.
Local Open Scope R_scope.

Section Spec.
Context {prec emax : Z} {Hp : Prec_gt_0 prec} {He : Prec_lt_emax prec emax}.
Notation fl := (fl prec emax).

(** How accurate the C math library is: exp to a relative error [c] (two halves of the smallest number near underflow, exp of minus
    infinity is 0, and it does not overflow below half the range), expm1 of negative numbers and tanh to an absolute error [c].  For a correctly rounded library
    [c] = 2 unit roundoffs (PropFloatNet.v). *)
Record libm_accurate (lib : libm prec emax) (c : R) : Prop := {
  a_pos : 0 <= c;
  a_exp : forall x, fin x -> fin (l_exp lib x) -> Rabs (B2R (l_exp lib x) - exp (B2R x)) <= c * exp (B2R x) + 2 * eta prec emax;
  a_exp_minf : l_exp lib (B754_infinity true) = B754_zero false;
  a_exp_over : forall x, fin x -> ~ fin (l_exp lib x) -> big emax / 2 <= exp (B2R x);
  a_expm1 : forall x, fin x -> B2R x <= 0 -> Rabs (B2R (l_expm1 lib x) - (exp (B2R x) - 1)) <= c;
  a_tanh : forall x, fin x -> Rabs (B2R (l_tanh lib x) - tanh (B2R x)) <= c
}.

(** The activations covered, applied to [k] numbers; GELU, SELU and SoftPlus are not.  SoftMax of fewer than about 0.4 / unit roundoff numbers. *)
Definition covered (a : scalar_activation) : Prop := a <> GELU /\ a <> SELU /\ a <> SoftPlus.
Definition act_covered (a : activation) (k : Z) : Prop :=
  match a with Functions.Scalar a => covered a | SoftMax => (0 < k)%Z /\ (1 + uro prec) ^ Z.to_nat k <= 3 / 2 end.
(** by how much an activation can magnify a difference *)
Definition gain (a : scalar_activation) : R := match a with Sigmoid => / 4 | Swish => 3 / 2 | _ => 1 end.
(** the error an activation itself adds on an argument of magnitude at most [p] *)
Definition noise (c : R) (a : scalar_activation) (p : R) : R :=
  let u := uro prec in let eta := eta prec emax in
  match a with
  | LReLU => 3 * u * (p / 100) + eta
  | ModRelu => 5 * u * (1 + p / 100) + 2 * eta
  | ELU => c + 4 * u
  | Tanh | ModTanh => c + 4 * u
  | Sigmoid => c + 7 * u
  | Swish => p * (c + 6 * u) + eta
  | SoftSign => 5 * u
  | _ => 0
  end.

(** the error of SoftMax on [k] numbers: with a library of accuracy [c] about (k+1) c + (4k + 6) unit roundoffs *)
Definition softmax_noise (c : R) (k : Z) : R :=
  IZR (k + 1) * (c + 2 * uro prec) + 2 * ((1 + uro prec) ^ Z.to_nat k - 1) + 4 * uro prec.
(** the error of an activation on [k] numbers known up to [d] and of magnitude at most [p] *)
Definition act_drift (c : R) (a : activation) (k : Z) (d p : Z -> R) (o : Z) : R :=
  match a with
  | Functions.Scalar a => gain a * d o + noise c a (p o)
  | SoftMax => exp (2 * vmax k d) - 1 + softmax_noise c k
  end.

(** The magnitude of what a layer sums up to get its pre-activations, for inputs [x] known up to [e]. *)
Definition magnitude (p : plan) (s : contents R) (x e : Z -> R) : Z -> R :=
  let ab (f : Z -> R) i := Rabs (f i) in
  let xe i := Rabs (x i) + e i in
  match p with
  | PDense _ n k => dense_pre n k (ab (s RB)) (ab (s (RW 0))) xe
  | PConv g => correlate g (ab (s RB)) (fun f => ab (s (RW f))) xe
  | PPool _ q => fun o => window_max q xe (o / q_ow q / q_oh q) ((o / q_ow q) mod q_oh q) (o mod q_ow q)
  end.
(** roundings made in computing one pre-activation: additions in sequence, products *)
Definition rounds (p : plan) (A : R) : R :=
  match p with
  | PDense _ n _ => roundings prec emax (n + 2) (n + 1) A
  | PConv g => let N := (g_fh g * (g_fw g * g_d g))%Z in roundings prec emax (N + 1) N A
  | PPool _ _ => 0
  end.
(** how the errors of the inputs add up in a pre-activation *)
Definition spread (p : plan) (s : contents R) (e : Z -> R) : Z -> R :=
  let ab (f : Z -> R) i := Rabs (f i) in
  match p with
  | PDense _ n k => dense_pre n k (fun _ => 0) (ab (s (RW 0))) e
  | PConv g => correlate g (fun _ => 0) (fun f => ab (s (RW f))) e
  | PPool _ q => fun o => window_max q e (o / q_ow q / q_oh q) ((o / q_ow q) mod q_oh q) (o mod q_ow q)
  end.
(** the error of a layer's outputs *)
Definition layer_drift (c : R) (p : plan) (s : contents R) (x e : Z -> R) (o : Z) : R :=
  let A := magnitude p s x e in
  let d o := spread p s e o + rounds p (A o) in
  match p with
  | PDense a _ _ | PPool a _ => act_drift c a (out_count p) d (fun o => A o + rounds p (A o)) o
  | PConv _ => d o
  end.
(** the error of the network's outputs, for inputs [x] known up to [e] *)
Fixpoint drift (c : R) (l : model) (x e : Z -> R) : Z -> R :=
  match l with [] => e | (p, s) :: l => drift c l (real_layer p s x) (layer_drift c p s x e) end.
(** No pre-activation comes near the largest number; the activations are covered. *)
Fixpoint safe (c : R) (l : model) (x e : Z -> R) : Prop :=
  match l with
  | [] => True
  | (p, s) :: l =>
      match p with PDense a _ _ | PPool a _ => act_covered a (out_count p) | PConv _ => True end /\
      (forall o, (0 <= o < out_count p)%Z -> let A := magnitude p s x e o in A + rounds p A < big emax) /\
      safe c l (real_layer p s x) (layer_drift c p s x e)
  end.

(** the exact network with the same parameters *)
Definition exact (l : list (node fl)) : model := map (fun d => (n_plan d, fun r i => B2R (n_data d r i))) l.
(** the parameters are finite numbers; a max pooling layer is of the class without training mode (C61) *)
Definition sound_layer (d : node fl) : Prop :=
  match n_plan d with
  | PDense _ n k => (forall o, (0 <= o < n * k)%Z -> fin (n_data d (RW 0) o)) /\ (forall j, (0 <= j < k)%Z -> fin (n_data d RB j))
  | PConv g => (forall f o, (0 <= f < g_f g)%Z -> (0 <= o < g_d g * g_fh g * g_fw g)%Z -> fin (n_data d (RW f) o)) /\
               (forall f, (0 <= f < g_f g)%Z -> fin (n_data d RB f))
  | PPool _ _ => ~ train_class (n_layer d)
  end.
End Spec.
