(** * Training with any of the optimizers (specification for C105, C106) *)
From Coq Require Import Reals.
From Verif Require Import Mem Scalar MemSpec Lique Functions Optimizer OptimizerSpec Layer LayerSpec RealSpec ConvSpec NetSpec PoolSpec Net NetPlan NetReal Schedule DescentSpec.
Open Scope Z_scope.

(** ** C105: the optimizer that belongs to a network *)
Section Any.
Context {T : Type} `{NT : Num T}.
(** [tt] is a parameter tensor (biases, weights, filter) of layer number [i] *)
Definition param_tensor (l : list (node T)) (i : nat) (r : role) (tt : tensor) : Prop :=
  match r with RB | RW _ => True | _ => False end /\ exists d, nth_error l i = Some d /\ part (n_layer d) r = Some tt.
(** The optimizer's tables for the tensor at address [a]: scratch memory and two accumulators. *)
Definition kept (o : opt T) (a : Z) : list range := [o_buff o a; o_m o a; o_s o a].
(** a buffer of [n] values: none yet, or memory of its own *)
Definition buffer_at (m : mem T) (b : range) (n : Z) : Prop := b = (Null, 0) \/ exists p, b = (p, n) /\ p <> Null /\ room m p n.
(** what the accumulator in buffer [b] is worth: zeros if there is none yet *)
Definition accumulator_is (m : mem T) (b : range) (n : Z) (v : Z -> T) : Prop :=
  (fst b = Null -> forall j, 0 <= j < n -> v j = zero) /\ (fst b <> Null -> holds m (fst b) n v).
(** memory of the network, the trainer and the data *)
Definition in_use (l : list (node T)) (t : trainer) (idata odata : list tensor) (q : ptr) (c : Z) : Prop :=
  (exists i d r tt, nth_error l i = Some d /\ part (n_layer d) r = Some tt /\ q = t_data tt /\ c = t_size tt) \/
  (q = t_data (tr_delta t) /\ c = t_size (tr_delta t)) \/
  (exists x, In x idata /\ q = t_data x /\ c = t_size x) \/
  (exists k y, (k < length idata)%nat /\ nth_error odata k = Some y /\ q = t_data y /\ c = t_size (tr_delta t)).
(** no buffer the optimizer keeps for the network's tensors overlaps the [c] elements at [q] *)
Definition off_optimizer (addr : ptr -> Z) (l : list (node T)) (o : opt T) (q : ptr) (c : Z) : Prop :=
  forall i r tt b, param_tensor l i r tt -> In b (kept o (addr (t_data tt))) -> disjoint q c (fst b) (t_size tt).
(** The parameter tensors have different addresses; for each of them the optimizer has no buffers yet
    or buffers of the right size, with accumulators [x i r] (first, second); no two of the buffers
    overlap, and none overlaps the network, the trainer or the data. *)
Definition optimizer_for (addr : ptr -> Z) (m : mem T) (l : list (node T)) (t : trainer) (idata odata : list tensor) (o : opt T)
    (x : nat -> role -> Z -> T * T) : Prop :=
  (forall i r tt i' r' tt', param_tensor l i r tt -> param_tensor l i' r' tt' -> addr (t_data tt) = addr (t_data tt') -> i = i' /\ r = r') /\
  (forall i r tt, param_tensor l i r tt -> let a := addr (t_data tt) in
     Forall (fun b => buffer_at m b (t_size tt)) (kept o a) /\
     accumulator_is m (o_m o a) (t_size tt) (fun j => fst (x i r j)) /\ accumulator_is m (o_s o a) (t_size tt) (fun j => snd (x i r j))) /\
  (forall i r tt i' r' tt' k k' b b', param_tensor l i r tt -> param_tensor l i' r' tt' ->
     nth_error (kept o (addr (t_data tt))) k = Some b -> nth_error (kept o (addr (t_data tt'))) k' = Some b' ->
     (k, i, r) <> (k', i', r') -> disjoint (fst b) (t_size tt) (fst b') (t_size tt')) /\
  (forall q c, in_use l t idata odata q c -> off_optimizer addr l o q c).
(** Data outside the network and the trainer. *)
Definition off_network (l : list (node T)) (t : trainer) (q : ptr) (c : Z) : Prop :=
  forall b i, inside q c b i -> ~ (net_block l b \/ inside (t_data (tr_delta t)) (t_size (tr_delta t)) b i).
End Any.

(** ** C106: the textbook rules on the gradients of the mean loss *)
Local Open Scope R_scope.
(** A new optimizer of one of the classes with learning rate [lr]. *)
Inductive new_optimizer (lr : R) : opt R -> Prop :=
| new_gd : new_optimizer lr (grad_descent lr)
| new_sgd decay : new_optimizer lr (sto_grad_descent lr decay)
| new_momentum mu : new_optimizer lr (momentum_opt lr mu)
| new_nestorov mu : new_optimizer lr (nestorov_opt lr mu)
| new_adagrad : new_optimizer lr (ada_grad lr)
| new_rmsprop beta : new_optimizer lr (rms_prop lr beta)
| new_adam b1 b2 : new_optimizer lr (adam lr b1 b2).
(** Its rule (OptimizerSpec.v): the parameter [w] after the calls [l], (iteration number, (rate, gradient)). *)
Definition rule (o : opt R) (w : R) (l : list (nat * (R * R))) : R :=
  match o_kind o with
  | GradDescent => gd_rule w (map snd l)
  | StoGradDescent alpha => sgd_rule alpha w (map snd l)
  | Momentum mu => momentum_rule mu w 0 (map snd l)
  | Nestorov mu => nestorov_rule mu w 0 (map snd l)
  | AdaGrad => adagrad_rule w 0 (map snd l)
  | RMSProp beta _ => rmsprop_rule beta w 0 (map snd l)
  | Adam b1 b2 _ _ => adam_rule b1 b2 w 0 0 l
  end.
(** The order in which an update visits the parameter tensors: (layer, role). *)
Definition layer_order (p : plan) : list role :=
  match p with
  | PDense _ _ _ => [RB; RW 0]
  | PConv g => map RW (zrange 0 (g_f g)) ++ [RB]
  | PPool _ _ => []
  end.
Fixpoint order_from (i : nat) (ps : list plan) : list (nat * role) :=
  match ps with [] => [] | p :: ps => map (pair i) (layer_order p) ++ order_from (S i) ps end.
Definition update_order (ps : list plan) : list (nat * role) := order_from 0 ps.
(** These two classes multiply the gradients in place by the learning rate. *)
Definition rescales (o : opt R) : bool := match o_kind o with GradDescent | StoGradDescent _ => true | _ => false end.

(** A training run of [length iss] updates, update number [e] on the batch [nth e iss]: the models
    before, between and after the updates are [ths 0, ..., ths (length iss)], and [G e i r j] is the
    gradient that update number [e] gave the optimizer for element [j] of tensor [r] of layer [i]. *)
Definition trained_by (o : opt R) (lo : loss) (xs ys : Z -> Z -> R) (iss : list (list Z)) (th th' : model) : Prop :=
  exists (ths : nat -> model) (G : nat -> nat -> role -> Z -> R),
    ths O = th /\ ths (length iss) = th' /\
    (forall e, (e <= length iss)%nat -> map fst (ths e) = map fst th) /\
    (* the gradients: those of the mean loss over the batch, plus, in convolutions, what was in the gradient tensors *)
    (forall e is i p s r j, nth_error iss e = Some is -> nth_error (ths e) i = Some (p, s) -> is_param p r j ->
       (smooth_on lo (ths e) xs ys is ->
        exists g, partial (fun v => mean_loss lo (with_param (ths e) i r v) xs ys is) (s r) j g /\
          G e i r j = g + match p with PConv _ => / INR (length is) * s (grad_role r) j | _ => 0 end) /\
       (forall s', nth_error (ths (S e)) i = Some (p, s') ->
          match p with PConv _ => s' (grad_role r) j = if rescales o then o_lr o * G e i r j else G e i r j | _ => True end)) /\
    (* the parameters: the optimizer's rule applied to the gradients so far *)
    (forall e i p s0 s r j, (e <= length iss)%nat -> nth_error th i = Some (p, s0) -> nth_error (ths e) i = Some (p, s) -> is_param p r j ->
       exists k, nth_error (update_order (map fst th)) k = Some (i, r) /\
       s r j = rule o (s0 r j) (map (fun e' => (e' * length (update_order (map fst th)) + k + 1, (o_lr o, G e' i r j))%nat) (seq 0 e))).
