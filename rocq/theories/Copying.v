(** * Model: lifetime of layers, networks and trainers as C++ objects
    /repo/include/Trixy/Neuro/Network/UnifiedNet.hpp (constructor, copy, destructor),
    /repo/include/Trixy/Neuro/Training/UnifiedNet.hpp (copy, move, destructor, loss(ILoss)),
    /repo/include/Trixy/Neuro/Network/Layer/*.hpp (destructors, connect).
    An object made by [new] is a block of one cell in the same heap as the tensors (the cell stands for the
    object: a virtual call on it reads the cell).  The storage of the containers [inner_], [Ws_] and
    [gradWs_] is not in this heap (Container.v models it): a container is the list of its elements. *)
From Verif Require Import Mem Scalar Lique Functions Optimizer Layer Net.
Open Scope Z_scope.

Section Copying.
Context {T : Type} `{NT : Num T}.

(** [new X] for a polymorphic class without members: an activation, a loss *)
Definition new_object : M T ptr := let* p := alloc 1 in store p 0 zero ;;; ret p.
(** [delete p]: nothing for a null pointer; otherwise the virtual destructor and the release *)
Definition delete_object (p : ptr) : M T unit :=
  match p with Null => ret tt | _ => let* _ := load p 0 in free p end.

(** A layer object made by [new]: its address, its members, the address in [activation_]. *)
Record lobj := mk_lobj { lo_this : ptr; lo_layer : layer; lo_act : ptr }.

(** The tensor members in order of declaration: FullyConnected.hpp:33-45 and 107-125,
    Convolutional.hpp:31-50 and 144-167, MaxPooling.hpp:33-46 and 131-150. *)
Definition members (L : layer) : list tensor :=
  match L with
  | LFC L => [f_B L; f_W L; f_value L; f_buff L; f_gradB L; f_gradW L; f_gradBs L; f_gradWs L; f_delta L]
  | LXFC L => [xf_B L; xf_W L; xf_value L]
  | LConv L => c_B L :: c_Ws L ++ c_value L :: c_gradWs L ++ [c_gradB L; c_delta L; c_buff L]
  | LXConv L => xc_B L :: xc_Ws L ++ [xc_value L]
  | LPool L => [p_value L; p_buff L; p_mask L; p_delta L]
  | LXPool L => [xp_value L]
  end.

(** [delete layer]: virtual destructor (FullyConnected.hpp:74, 168; MaxPooling.hpp:84, 191; implicit in
    Convolutional.hpp: there is no [activation_], [lo_act] is null), then the members in reverse order
    of declaration (Vector.hpp:35-38, Matrix.hpp:34-37, Tensor.hpp:29-32), then the storage. *)
Definition delete_layer (o : lobj) : M T unit :=
  match lo_this o with
  | Null => ret tt
  | this =>
    let* _ := load this 0 in
    delete_object (lo_act o) ;;;
    mlist (rev (members (lo_layer o))) (fun t _ => free (t_data t)) tt ;;;
    free this
  end.

(** [new Layer(...)] of the Train classes: FullyConnected.hpp:138-149, Convolutional.hpp:182-200,
    MaxPooling.hpp:163-179; the activation argument is [new A] *)
Inductive layer_expr :=
| NewFC (isize osize : Z) (a : activation)
| NewConv (size : shape) (fcount fh fw pad vs hs : Z)
| NewPool (d h w vs hs : Z) (a : activation).
Definition new_layer (e : layer_expr) : M T lobj :=
  let* this := new_object in
  match e with
  | NewFC n k a => let* act := new_object in let* L := fc_new n k (Some a) in ret (mk_lobj this (LFC L) act)
  | NewConv s f fh fw p vs hs => let* L := conv_new s f fh fw p vs hs in ret (mk_lobj this (LConv L) Null)
  | NewPool d h w vs hs a => let* act := new_object in let* L := pool_new d h w vs hs (Some a) in ret (mk_lobj this (LPool L) act)
  end.

(** FullyConnected.hpp:76-80, 176-180, MaxPooling.hpp:86-90, 193-197 [connect(activation)];
    Convolutional.hpp:97, 235: nothing *)
Definition set_act (L : layer) (a : activation) : layer :=
  match L with
  | LFC L => LFC (mk_fc (f_isize L) (f_osize L) (f_B L) (f_W L) (Some a) (f_value L) (f_buff L) (f_gradB L) (f_gradW L)
                        (f_gradBs L) (f_gradWs L) (f_delta L) (f_acc L))
  | LXFC L => LXFC (mk_xfc (xf_isize L) (xf_osize L) (xf_B L) (xf_W L) (Some a) (xf_value L))
  | LPool L => LPool (mk_pool (p_isize L) (p_osize L) (p_vs L) (p_hs L) (Some a) (p_value L) (p_buff L) (p_mask L) (p_delta L))
  | LXPool L => LXPool (mk_xpool (xp_isize L) (xp_osize L) (xp_vs L) (xp_hs L) (Some a) (xp_value L))
  | _ => L
  end.
Definition connect (o : lobj) (p : ptr) (a : activation) : M T lobj :=
  match lo_layer o with
  | LConv _ | LXConv _ => ret o
  | L => delete_object (lo_act o) ;;; ret (mk_lobj (lo_this o) (set_act L a) p)
  end.

(** ** Networks: the pointers in [inner_] (UnifiedNet.hpp:54) *)
Definition nobj := list lobj.
(** 76-80 [add(new Layer(...))], one after the other *)
Definition build_net (es : list layer_expr) : M T nobj :=
  mlist es (fun e N => let* o := new_layer e in ret (N ++ [o])) [].
(** the implicit copy constructor (the class declares a destructor only): [inner_] is copied, i.e. the pointers
    (Container.hpp:60-67).  There is no implicit move constructor, so [std::move] copies, too. *)
Definition net_copy (N : nobj) : nobj := N.
(** 70-74 *)
Definition net_destroy (N : nobj) : M T unit := mlist N (fun o _ => delete_layer o) tt.

(** ** Trainers: [delta] and [loss_] (Training/UnifiedNet.hpp:53-57) *)
Record tobj := mk_tobj { to_delta : tensor; to_loss : ptr }.
(** 176-180 [loss(loss)] *)
Definition trainer_loss (t : tobj) (p : ptr) : M T tobj := delete_object (to_loss t) ;;; ret (mk_tobj (to_delta t) p).
(** 70 [Training(const Training&) = default] *)
Definition trainer_copy (t : tobj) : M T tobj := let* d := ten_copy_ctor (to_delta t) in ret (mk_tobj d (to_loss t)).
(** 71 [Training(Training&&) noexcept = default]: (new object, source) *)
Definition trainer_move (t : tobj) : tobj * tobj :=
  let (d, d') := ten_move_ctor (to_delta t) in (mk_tobj d (to_loss t), mk_tobj d' (to_loss t)).
(** 64-67, then the member *)
Definition trainer_destroy (t : tobj) : M T unit := delete_object (to_loss t) ;;; ten_destroy (to_delta t).
End Copying.
