(** * Specification vocabulary for networks: what each layer is meant to compute, how layers are
    connected, the contents of a whole network *)
From Verif Require Import Mem Scalar MemSpec Lique LiqueSpec Functions FunctionSpec Layer LayerSpec ConvSpec PoolSpec Net.
Open Scope Z_scope.

(** A dense layer of [n] inputs and [k] outputs with activation [a], a convolution, a pooling. *)
Inductive plan := PDense (a : activation) (n k : Z) | PConv (g : geometry) | PPool (a : activation) (q : tiling).
Definition p_in (p : plan) : shape :=
  match p with
  | PDense _ n _ => shape3 1 1 n | PConv g => shape3 (g_d g) (g_h g) (g_w g) | PPool _ q => shape3 (q_d q) (q_h q) (q_w q)
  end.
Definition p_out (p : plan) : shape :=
  match p with
  | PDense _ _ k => shape3 1 1 k | PConv g => shape3 (g_f g) (out_h g) (out_w g) | PPool _ q => shape3 (q_d q) (q_oh q) (q_ow q)
  end.
Definition in_count (p : plan) : Z :=
  match p with PDense _ n _ => n | PConv g => g_d g * g_h g * g_w g | PPool _ q => q_d q * q_h q * q_w q end.
Definition out_count (p : plan) : Z :=
  match p with PDense _ _ k => k | PConv g => g_f g * out_h g * out_w g | PPool _ q => q_d q * q_oh q * q_ow q end.
(** Which tensor shapes a layer accepts as input: a dense layer looks at the number of elements
    only; and as incoming delta. *)
Definition feeds (p : plan) (s : shape) : Prop :=
  match p with PDense _ n _ => s_size s = n | _ => s = p_in p end.
Definition feeds_back (p : plan) (s : shape) : Prop :=
  match p with PConv _ => s = p_out p | _ => s_size s = out_count p end.

Section NetPlan.
Context {T : Type} `{NT : Num T}.
(** Layer object [L] has the members of a layer with plan [p]. *)
Definition fits (L : layer) (p : plan) : Prop :=
  match L, p with
  | LFC L, PDense a n k => fc_dims L n k /\ f_act L = Some a /\ (a = SoftMax -> 0 < k) /\
      t_shape (f_value L) = shape3 1 1 k /\ t_shape (f_delta L) = shape3 1 1 n
  | LXFC L, PDense a n k => xfc_dims L n k /\ xf_act L = Some a /\ (a = SoftMax -> 0 < k) /\ t_shape (xf_value L) = shape3 1 1 k
  | LConv L, PConv g => conv_dims L g
  | LXConv L, PConv g => xconv_dims L g
  | LPool L, PPool a q => pool_dims L q /\ p_act L = Some a /\ (a = SoftMax -> 0 < out_count (PPool a q))
  | LXPool L, PPool a q => xpool_dims L q /\ xp_act L = Some a /\ (a = SoftMax -> 0 < out_count (PPool a q))
  | _, _ => False
  end.
(** the classes with training mode *)
Definition train_class (L : layer) : Prop := match L with LFC _ | LConv _ | LPool _ => True | _ => False end.

(** A layer of a network: the object, its plan and the contents of its tensors. *)
Record node := mk_node { n_layer : layer; n_plan : plan; n_data : contents T }.
(** The network in memory: every layer has the members it should have, with the given contents,
    and no two layers share memory. *)
Definition net_at (m : mem T) (l : list node) : Prop :=
  Forall (fun d => fits (n_layer d) (n_plan d) /\ layer_at m (n_layer d) (n_data d)) l /\
  ForallOrdPairs (fun d e => forall b, block_in (n_layer d) b -> ~ block_in (n_layer e) b) l.
(** Each layer accepts the output shape of the one before it, the first one shape [s]. *)
Fixpoint wired (s : shape) (ps : list plan) : Prop :=
  match ps with [] => True | p :: ps => feeds p s /\ wired (p_out p) ps end.
(** Each layer accepts the delta of the one after it, the last one a delta of shape [s]. *)
Fixpoint wired_back (ps : list plan) (s : shape) : Prop :=
  match ps with
  | [] => True
  | [p] => feeds_back p s
  | p :: ((q :: _) as ps') => feeds_back p (p_in q) /\ wired_back ps' s
  end.
Definition plans (l : list node) : list plan := map n_plan l.
Definition layers (l : list node) : list layer := map n_layer l.
(** [b] is a memory block of the network; the array at [p] is not in its memory *)
Definition net_block (l : list node) (b : nat) : Prop := exists d, In d l /\ block_in (n_layer d) b.
Definition net_outside (l : list node) (p : ptr) : Prop := match p with Null => True | Ptr b _ => ~ net_block l b end.

(** What a layer computes from its input [x]: a function of the plan and the parameters.  The
    Train class of max pooling computes the activation of its internal buffer (C61). *)
Definition dense_out (a : activation) (n k : Z) (B W x : Z -> T) : Z -> T :=
  act_val a k (fun j => add (zsum n (fun i => mul (x i) (W (i * k + j)))) (B j)).
Definition conv_out (g : geometry) (B : Z -> T) (W : Z -> Z -> T) (x : Z -> T) (o : Z) : T :=
  conv_val g B W x (o / out_w g / out_h g) ((o / out_w g) mod out_h g) (o mod out_w g).
Definition pool_out (a : activation) (q : tiling) (x : Z -> T) : Z -> T :=
  act_val a (out_count (PPool a q)) (fun o => window_max q x (o / q_ow q / q_oh q) ((o / q_ow q) mod q_oh q) (o mod q_ow q)).
Definition node_out (d : node) (x : Z -> T) : Z -> T :=
  match n_plan d, n_layer d with
  | PDense a n k, _ => dense_out a n k (n_data d RB) (n_data d (RW 0)) x
  | PConv g, _ => conv_out g (n_data d RB) (fun f => n_data d (RW f)) x
  | PPool a q, LPool _ => act_val a (out_count (PPool a q)) (n_data d RBuff)
  | PPool a q, _ => pool_out a q x
  end.
(** The function of the network: the composition of the functions of its layers. *)
Definition net_out (l : list node) (x : Z -> T) : Z -> T := fold_left (fun v d => node_out d v) l x.
End NetPlan.
Arguments node T : clear implicits.
