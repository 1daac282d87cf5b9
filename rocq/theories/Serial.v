(** * Model: serialization
    /repo/include/Trixy/Lique/{Shape,TensorBase}.hpp, Neuro/Network/Layer/*.hpp, Neuro/Network/UnifiedNet.hpp,
    Neuro/Regression/*.hpp (the SERIALIZATION blocks at the ends of the files), Neuro/Serializer/Core.hpp.

    The archive itself is the external library SF, which is not in /repo.  It is modelled as what its
    documentation promises: a sequence of items, written in the order of [archive & a & b] and read in the same order.
    [Serializer::serialize] (Serializer/Core.hpp:16-29) writes this sequence into a byte vector, and the vector into the file;
    the encoding of items as bytes is not modelled.  Assumed of SF:
    - [sf::span(data, n)]: saving writes n and then the n elements; loading reads n and then the elements, into a new
      array if [data] is null (an object that is not freshly constructed: not modelled, [BadCall]);
    - a pointer to a polymorphic object (layer, activation): saving writes the dynamic class and then the object; loading into a null pointer
      creates an object of this class with its default constructor and loads it. *)
From Verif Require Import Mem Scalar Lique Functions Optimizer Layer Net.
Open Scope Z_scope.

Inductive kind := KFC | KConv | KPool | KXFC | KXConv | KXPool.
Inductive item (T : Type) := IWord (z : Z) | INum (x : T) | IAct (a : option activation) | IKind (k : kind).
Arguments IWord {T}. Arguments INum {T}. Arguments IAct {T}. Arguments IKind {T}.

Section Serial.
Context {T : Type} `{NT : Num T}.
Notation archive := (list (item T)).

(** ** saving *)
(** Shape.hpp:53-57 *)
Definition save_shape (s : shape) : archive := [IWord (s_depth s); IWord (s_height s); IWord (s_width s); IWord (s_size s)].
(** [sf::span(data, n)] of numbers: the elements from number [i] on *)
Fixpoint save_elems (p : ptr) (i : Z) (n : nat) : M T archive :=
  match n with
  | O => ret []
  | S n => let* x := load p i in let* r := save_elems p (i + 1) n in ret (INum x :: r)
  end.
(** TensorBase.hpp:311-316 *)
Definition save_tensor (t : tensor) : M T archive :=
  let* xs := save_elems (t_data t) 0 (Z.to_nat (t_size t)) in
  ret (save_shape (t_shape t) ++ IWord (t_size t) :: xs).
Fixpoint save_tensors (ts : list tensor) : M T archive :=
  match ts with [] => ret [] | t :: ts => let* a := save_tensor t in let* r := save_tensors ts in ret (a ++ r) end.
(** Container.hpp:308-313 [sf::span(data_, size_)] of tensors *)
Definition save_container (ts : list tensor) : M T archive := let* r := save_tensors ts in ret (IWord (Z.of_nat (length ts)) :: r).
(** FullyConnected.hpp:271-279 (both classes) *)
Definition save_dense (isize osize : shape) (B W : tensor) (act : option activation) : M T archive :=
  let* b := save_tensor B in
  let* w := save_tensor W in
  ret (save_shape isize ++ save_shape osize ++ b ++ w ++ [IAct act]).
(** Convolutional.hpp:369-378 *)
Definition save_convolution (isize osize : shape) (pad vs hs : Z) (B : tensor) (Ws : list tensor) : M T archive :=
  let* b := save_tensor B in
  let* w := save_container Ws in
  ret (save_shape isize ++ save_shape osize ++ IWord pad :: IWord vs :: IWord hs :: b ++ w).
(** MaxPooling.hpp:275-283 *)
Definition save_pooling (isize osize : shape) (vs hs : Z) (act : option activation) : archive :=
  save_shape isize ++ save_shape osize ++ [IWord vs; IWord hs; IAct act].
(** [archive & pointer to layer] *)
Definition save_layer (L : layer) : M T archive :=
  match L with
  | LFC L => let* a := save_dense (f_isize L) (f_osize L) (f_B L) (f_W L) (f_act L) in ret (IKind KFC :: a)
  | LXFC L => let* a := save_dense (xf_isize L) (xf_osize L) (xf_B L) (xf_W L) (xf_act L) in ret (IKind KXFC :: a)
  | LConv L => let* a := save_convolution (c_isize L) (c_osize L) (c_pad L) (c_vs L) (c_hs L) (c_B L) (c_Ws L) in ret (IKind KConv :: a)
  | LXConv L => let* a := save_convolution (xc_isize L) (xc_osize L) (xc_pad L) (xc_vs L) (xc_hs L) (xc_B L) (xc_Ws L) in ret (IKind KXConv :: a)
  | LPool L => ret (IKind KPool :: save_pooling (p_isize L) (p_osize L) (p_vs L) (p_hs L) (p_act L))
  | LXPool L => ret (IKind KXPool :: save_pooling (xp_isize L) (xp_osize L) (xp_vs L) (xp_hs L) (xp_act L))
  end.
Fixpoint save_layers (N : list layer) : M T archive :=
  match N with [] => ret [] | L :: N => let* a := save_layer L in let* r := save_layers N in ret (a ++ r) end.
(** UnifiedNet.hpp:130-134: [inner_], a container of pointers to layers *)
Definition save_net (N : net) : M T archive := let* r := save_layers N in ret (IWord (net_size N) :: r).
(** Linear.hpp:104-108, Polynomial.hpp:115-119: [W] and [N] *)
Definition save_regression (W : tensor) (N : Z) : M T archive := let* w := save_tensor W in ret (w ++ [IWord N]).

(** ** loading: the result and the rest of the archive; an item of another sort is an error *)
Definition get_word (a : archive) : M T (Z * archive) := match a with IWord z :: a => ret (z, a) | _ => fail BadCall end.
Definition get_num (a : archive) : M T (T * archive) := match a with INum x :: a => ret (x, a) | _ => fail BadCall end.
Definition get_act (a : archive) : M T (option activation * archive) := match a with IAct o :: a => ret (o, a) | _ => fail BadCall end.
Definition get_kind (a : archive) : M T (kind * archive) := match a with IKind k :: a => ret (k, a) | _ => fail BadCall end.
(** Shape.hpp:53-57 *)
Definition load_shape (a : archive) : M T (shape * archive) :=
  let* (d, a) := get_word a in let* (h, a) := get_word a in let* (w, a) := get_word a in let* (n, a) := get_word a in
  ret (mk_shape d h w n, a).
Fixpoint load_elems (p : ptr) (i : Z) (n : nat) (a : archive) : M T archive :=
  match n with
  | O => ret a
  | S n => let* (x, a) := get_num a in store p i x ;;; load_elems p (i + 1) n a
  end.
(** TensorBase.hpp:311-316: the shape, then the span, which sets [shape_.size] again *)
Definition load_tensor (t : tensor) (a : archive) : M T (tensor * archive) :=
  let* (s, a) := load_shape a in
  let* (n, a) := get_word a in
  match t_data t with
  | Null =>
    let* p := alloc n in
    let* a := load_elems p 0 (Z.to_nat n) a in
    ret (mk_tensor p (mk_shape (s_depth s) (s_height s) (s_width s) n), a)
  | _ => fail BadCall
  end.
Fixpoint load_tensors (n : nat) (a : archive) : M T (list tensor * archive) :=
  match n with
  | O => ret ([], a)
  | S n => let* (t, a) := load_tensor tb_default a in let* (ts, a) := load_tensors n a in ret (t :: ts, a)
  end.
(** Container.hpp:308-313 *)
Definition load_container (a : archive) : M T (list tensor * archive) := let* (n, a) := get_word a in load_tensors (Z.to_nat n) a.
(** FullyConnected.hpp:274-276 *)
Definition load_dense (a : archive) : M T (shape * shape * tensor * tensor * option activation * archive) :=
  let* (isize, a) := load_shape a in let* (osize, a) := load_shape a in
  let* (B, a) := load_tensor tb_default a in let* (W, a) := load_tensor tb_default a in
  let* (act, a) := get_act a in
  ret (isize, osize, B, W, act, a).
(** Convolutional.hpp:372-375 *)
Definition load_convolution (a : archive) : M T (shape * shape * Z * Z * Z * tensor * list tensor * archive) :=
  let* (isize, a) := load_shape a in let* (osize, a) := load_shape a in
  let* (pad, a) := get_word a in let* (vs, a) := get_word a in let* (hs, a) := get_word a in
  let* (B, a) := load_tensor tb_default a in let* (Ws, a) := load_container a in
  ret (isize, osize, pad, vs, hs, B, Ws, a).
(** MaxPooling.hpp:278-280 *)
Definition load_pooling (a : archive) : M T (shape * shape * Z * Z * option activation * archive) :=
  let* (isize, a) := load_shape a in let* (osize, a) := load_shape a in
  let* (vs, a) := get_word a in let* (hs, a) := get_word a in let* (act, a) := get_act a in
  ret (isize, osize, vs, hs, act, a).
(** [archive & pointer to layer] with a null pointer: a default-constructed layer (FullyConnected.hpp:49, 135; Convolutional.hpp:51, 172;
    MaxPooling.hpp:51, 153), its members, and [prepare()] *)
Definition load_layer (a : archive) : M T (layer * archive) :=
  let* (k, a) := get_kind a in
  match k with
  | KFC =>
    let* (isize, osize, B, W, act, a) := load_dense a in
    let* L := fc_prepare (mk_fc isize osize B W act tb_default tb_default tb_default tb_default tb_default tb_default tb_default false) in
    ret (LFC L, a)
  | KXFC =>
    let* (isize, osize, B, W, act, a) := load_dense a in
    let* L := xfc_prepare (mk_xfc isize osize B W act tb_default) in
    ret (LXFC L, a)
  | KConv =>
    let* (isize, osize, pad, vs, hs, B, Ws, a) := load_convolution a in
    let* L := conv_prepare (mk_conv isize osize pad vs hs B Ws 0 (shape3 0 0 0) tb_default [] tb_default tb_default tb_default) in
    ret (LConv L, a)
  | KXConv =>
    let* (isize, osize, pad, vs, hs, B, Ws, a) := load_convolution a in
    let* L := xconv_prepare (mk_xconv isize osize pad vs hs B Ws 0 (shape3 0 0 0) tb_default) in
    ret (LXConv L, a)
  | KPool =>
    let* (isize, osize, vs, hs, act, a) := load_pooling a in
    let* L := pool_prepare (mk_pool isize osize vs hs act tb_default tb_default tb_default tb_default) in
    ret (LPool L, a)
  | KXPool =>   (* [prepare()], MaxPooling.hpp:79, does nothing *)
    let* (isize, osize, vs, hs, act, a) := load_pooling a in
    ret (LXPool (mk_xpool isize osize vs hs act tb_default), a)
  end.
Fixpoint load_layers (n : nat) (a : archive) : M T (list layer * archive) :=
  match n with
  | O => ret ([], a)
  | S n => let* (L, a) := load_layer a in let* (N, a) := load_layers n a in ret (L :: N, a)
  end.
(** UnifiedNet.hpp:130-134, into a network without layers *)
Definition load_net (a : archive) : M T (net * archive) := let* (n, a) := get_word a in load_layers (Z.to_nat n) a.
(** Linear.hpp:104-108, Polynomial.hpp:115-119 *)
Definition load_regression (a : archive) : M T (tensor * Z * archive) :=
  let* (W, a) := load_tensor tb_default a in let* (N, a) := get_word a in ret (W, N, a).
End Serial.
