(** * Specification vocabulary for layers: which tensors a layer owns, what they contain *)
From Verif Require Import Mem Scalar MemSpec Lique LiqueSpec Layer.
Open Scope Z_scope.

(** The roles of the tensors owned by a layer; [RW f], [RGradW f]: filter number [f] of a
    convolution; a fully connected layer has [RW 0] and [RGradW 0] only. *)
Inductive role := RB | RW (f : Z) | RValue | RBuff | RGradB | RGradW (f : Z) | RGradBs | RGradWs | RDelta | RMask.
Definition role_eq_dec (r r' : role) : {r = r'} + {r <> r'}.
Proof. decide equality; apply Z.eq_dec. Defined.

Section LayerSpec.
Context {T : Type} `{NT : Num T}.

(** A tensor object of [n] elements that owns its memory: the start of a live allocation. *)
Definition owner (m : mem T) (t : tensor) (n : Z) : Prop :=
  t_size t = n /\ exists b, t_data t = Ptr b 0 /\ live m b n.
Definition block_of (t : tensor) : nat := match t_data t with Ptr b _ => b | Null => 0%nat end.

(** The tensor in a role, if the layer has one. *)
Definition part (L : layer) (r : role) : option tensor :=
  match L with
  | LFC L =>
      match r with
      | RB => Some (f_B L) | RW 0 => Some (f_W L) | RValue => Some (f_value L) | RBuff => Some (f_buff L)
      | RGradB => Some (f_gradB L) | RGradW 0 => Some (f_gradW L) | RGradBs => Some (f_gradBs L)
      | RGradWs => Some (f_gradWs L) | RDelta => Some (f_delta L) | _ => None
      end
  | LXFC L =>
      match r with RB => Some (xf_B L) | RW 0 => Some (xf_W L) | RValue => Some (xf_value L) | _ => None end
  | LConv L =>
      match r with
      | RB => Some (c_B L) | RW f => znth (c_Ws L) f | RValue => Some (c_value L) | RBuff => Some (c_buff L)
      | RGradB => Some (c_gradB L) | RGradW f => znth (c_gradWs L) f | RDelta => Some (c_delta L) | _ => None
      end
  | LXConv L =>
      match r with RB => Some (xc_B L) | RW f => znth (xc_Ws L) f | RValue => Some (xc_value L) | _ => None end
  | LPool L =>
      match r with
      | RValue => Some (p_value L) | RBuff => Some (p_buff L) | RMask => Some (p_mask L) | RDelta => Some (p_delta L)
      | _ => None
      end
  | LXPool L => match r with RValue => Some (xp_value L) | _ => None end
  end.

(** The contents of a layer's tensors, each read as a flat array. *)
Definition contents : Type := role -> Z -> T.
(** Layer [L] in memory [m]: every tensor owns its memory, no two share it, contents [s]. *)
Definition layer_at (m : mem T) (L : layer) (s : contents) : Prop :=
  (forall r t, part L r = Some t -> owner m t (t_size t) /\ holds m (t_data t) (t_size t) (s r)) /\
  (forall r r' t t', part L r = Some t -> part L r' = Some t' -> r <> r' -> block_of t <> block_of t').
(** [b] is one of the layer's memory blocks / the block of its tensor in role [r]. *)
Definition block_in (L : layer) (b : nat) : Prop := exists r t, part L r = Some t /\ b = block_of t.
Definition block_at (L : layer) (r : role) (b : nat) : Prop := exists t, part L r = Some t /\ b = block_of t.
(** The array at [p] is not in the layer's own memory. *)
Definition outside (L : layer) (p : ptr) : Prop := match p with Null => True | Ptr b _ => ~ block_in L b end.
(** Contents [s] with those of role [r] replaced by [f]. *)
Definition set_role (s : contents) (r : role) (f : Z -> T) : contents :=
  fun r' => if role_eq_dec r' r then f else s r'.

(** Shapes of a fully connected layer with [n] inputs and [k] outputs. *)
Definition fc_dims (L : fc) (n k : Z) : Prop :=
  0 <= n < 2 ^ 64 /\ 0 <= k < 2 ^ 64 /\ n * k < 2 ^ 64 /\
  f_isize L = shape3 1 1 n /\ f_osize L = shape3 1 1 k /\
  (forall t, In t [f_B L; f_value L; f_buff L; f_gradB L; f_gradBs L] -> t_size t = k) /\
  (forall t, In t [f_W L; f_gradW L; f_gradWs L] -> mat_is t n k) /\
  t_size (f_delta L) = n.
Definition xfc_dims (L : xfc) (n k : Z) : Prop :=
  0 <= n < 2 ^ 64 /\ 0 <= k < 2 ^ 64 /\ n * k < 2 ^ 64 /\
  xf_isize L = shape3 1 1 n /\ xf_osize L = shape3 1 1 k /\
  (forall t, In t [xf_B L; xf_value L] -> t_size t = k) /\ mat_is (xf_W L) n k.
End LayerSpec.
Arguments contents T : clear implicits.
