(** * Minimising a function with an optimizer (specification for C118-C121) *)
From Coq Require Import Reals Permutation.
From Verif Require Import Mem Scalar MemSpec Optimizer OptimizerSpec RealSpec.
Local Open Scope R_scope.

Section Objective.
Context {Nm : Type} (ks : list Nm) (N : Nm -> Z).

(** The parameters: element [j] of tensor [k]; only the tensors in [ks] and their [N k] elements count. *)
Definition point : Type := Nm -> Z -> R.
Definition total (f : point) : R := fold_right (fun k s => rsum (N k) (f k) + s) 0 ks.
Definition dot (x y : point) : R := total (fun k j => x k j * y k j).
Definition norm2 (x : point) : R := dot x x.
Definition minus (x y : point) : point := fun k j => x k j - y k j.
Definition agree (x y : point) : Prop := forall k j, In k ks -> (0 <= j < N k)%Z -> x k j = y k j.

(** [F] has gradient [G], Lipschitz with constant [L] (the usual consequence: [F] stays within a
    parabola of curvature [L] around each of its tangent planes). *)
Definition smooth (L : R) (F : point -> R) (G : point -> point) : Prop :=
  forall x y, Rabs (F y - F x - dot (G x) (minus y x)) <= L / 2 * norm2 (minus y x).
(** [F] lies above its tangent planes. *)
Definition convex (F : point -> R) (G : point -> point) : Prop :=
  forall x y, F x + dot (G x) (minus y x) <= F y.
(** [F] lies above parabolas of curvature [c]. *)
Definition strongly_convex (c : R) (F : point -> R) (G : point -> point) : Prop :=
  forall x y, F x + dot (G x) (minus y x) + c / 2 * norm2 (minus y x) <= F y.
Definition minimum (F : point -> R) (z : point) : Prop := forall x, F z <= F x.
(** [g] is a subgradient of [f] at [x]. *)
Definition subgradient (f : point -> R) (x g : point) : Prop := forall y, f x + dot g (minus y x) <= f y.
End Objective.

(** One round of a program that minimises something: at the point [r_at] (the values of the tensors
    when the round begins) with rate [r_rate] every tensor was updated once, with gradient [r_grad]. *)
Record round {Nm : Type} := mk_round { r_rate : R; r_at : @point Nm; r_grad : @point Nm }.
Arguments round : clear implicits.

Section Rounds.
Context {Nm : Type} `{NI : Names Nm}.
(** Programs that use an optimizer, round after round; within a round the tensors are updated in any
    order and anything else (such as computing the gradients) may happen in between ([history]). *)
Inductive rounds (addr : ptr -> Z) (P : Nm -> ptr) (N : Nm -> Z) (ks : list Nm) (lr0 : R) (o0 : opt R) (m0 : mem R)
  : list (round Nm) -> R -> opt R -> mem R -> Prop :=
| rounds_start : rounds addr P N ks lr0 o0 m0 [] lr0 o0 m0
| rounds_next rs lr o m r cs lr' o' m' : rounds addr P N ks lr0 o0 m0 rs lr o m ->
    (forall k, In k ks -> holds m (P k) (N k) (r_at r k)) ->
    history addr P N lr o m cs lr' o' m' ->
    Permutation (map c_tensor cs) ks ->
    Forall (fun c => c_lr c = r_rate r /\ forall j, (0 <= j < N (c_tensor c))%Z -> c_grad c j = r_grad r (c_tensor c) j) cs ->
    rounds addr P N ks lr0 o0 m0 (rs ++ [r]) lr' o' m'.
End Rounds.

(** Sums over rounds. *)
Definition over {Nm} (rs : list (round Nm)) (f : round Nm -> R) : R := fold_right (fun r s => f r + s) 0 rs.
Definition product_over {Nm} (rs : list (round Nm)) (f : round Nm -> R) : R := fold_right (fun r s => f r * s) 1 rs.
(** In every round the gradient of [F] at the current point was used. *)
Definition follows {Nm} (ks : list Nm) (N : Nm -> Z) (G : point -> point) (rs : list (round Nm)) : Prop :=
  Forall (fun r => agree ks N (r_grad r) (G (r_at r))) rs.
