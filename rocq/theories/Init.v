(** * Model: initialisation of the parameters by a generator
    /repo/include/Trixy/Neuro/Network/UnifiedNet.hpp:115-122, Layer/*.hpp ([init]), Lique/TensorBase.hpp:148-154,
    Lique/Detail/FunctionDetail.hpp:61-65.

    The generator is a function object.  It has a state of its own, of type [S], which is copied when
    the object is copied (members, a mutable lambda's by-value captures); and it may use a state [G] outside
    of the object (std::rand, a generator captured by reference), shared by all copies.
    [call s g]: the value returned by a call and both new states.  [std::function] (the Generator of
    Layer/Base.hpp:45) copies the object it holds when it is copied. *)
From Verif Require Import Mem Scalar Lique Layer Net.
Open Scope Z_scope.

Section Init.
Context {T : Type} `{NT : Num T} {S G : Type} (call : S -> G -> T * (S * G)).
(** FunctionDetail.hpp:61-65 [fill(first, last, gen)]: [gen] is a copy; its own state is lost on return *)
Definition detail_fill_fn (p : ptr) (n : Z) (s : S) (g : G) : M T G :=
  let* st := mfold 0 n (fun i st =>
    let r := call (fst st) (snd st) in
    store p i (fst r) ;;; ret (snd r)) (s, g) in
  ret (snd st).
(** TensorBase.hpp:148-154 [fill(generator)]: by value *)
Definition tb_fill_fn (t : tensor) (s : S) (g : G) : M T G := detail_fill_fn (t_data t) (t_size t) s g.
(** FullyConnected.hpp:170-174 *)
Definition fc_init (L : fc) (s : S) (g : G) : M T G := let* g := tb_fill_fn (f_B L) s g in tb_fill_fn (f_W L) s g.
(** Convolutional.hpp:229-233 *)
Definition conv_init (L : conv) (s : S) (g : G) : M T G :=
  let* g := mlist (c_Ws L) (fun W g => tb_fill_fn W s g) g in tb_fill_fn (c_B L) s g.
(** Convolutional.hpp:91-95 *)
Definition xconv_init (L : xconv) (s : S) (g : G) : M T G :=
  let* g := mlist (xc_Ws L) (fun W g => tb_fill_fn W s g) g in tb_fill_fn (xc_B L) s g.
(** The virtual call; MaxPooling.hpp:199 does nothing, the Raw classes of FullyConnected and MaxPooling inherit
    Layer/Base.hpp:53, which does nothing.  The generator is passed by reference, and not called on the way. *)
Definition l_init (L : layer) (s : S) (g : G) : M T G :=
  match L with
  | LFC L => fc_init L s g | LConv L => conv_init L s g | LXConv L => xconv_init L s g
  | LPool _ | LXFC _ | LXPool _ => ret g
  end.
(** UnifiedNet.hpp:115-122 *)
Definition net_init (N : net) (s : S) (g : G) : M T G :=
  mfold 0 (net_size N) (fun i g => let* L := nth_of N i in l_init L s g) g.
End Init.
