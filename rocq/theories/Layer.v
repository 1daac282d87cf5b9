(** * Model of the layers: /repo/include/Trixy/Neuro/Network/Layer/{FullyConnected,Convolutional,
    MaxPooling,Base}.hpp

    A layer object is a record of its members; tensor members are handles to heap blocks
    (Lique.v); [Container<Tensor>] members are lists of handles (the container itself is modelled
    in Container.v).  Virtual dispatch is a match on the kind of layer.  [activation_] is [None]
    for nullptr.  Reading the name: an [x...] record is the Raw variant of a class.
    [init] is modelled in Init.v, the destructors and [connect] in Copying.v. *)
From Verif Require Import Mem Scalar Lique Linear Functions Optimizer.
Open Scope Z_scope.

Section Layer.
Context {T : Type} `{NT : Num T}.

(** virtual call through [activation_] *)
Definition with_act {A} (o : option activation) (k : activation -> M T A) : M T A :=
  match o with Some a => k a | None => fail NullDeref end.
(** conversion of a tensor to a range (data, size) in the calls of activations and optimizers *)
Definition rng (t : tensor) : range := (t_data t, t_size t).
Definition call_f (a : activation) (result input : tensor) : M T unit :=
  act_f a (t_data result) (t_size result) (t_data input) (t_size input).
Definition call_df (a : activation) (result input : tensor) : M T unit :=
  act_df a (t_data result) (t_size result) (t_data input) (t_size input).
(** [x.resize(...).fill(0.f)] of the three classes *)
Definition vec_zeros (t : tensor) (w : Z) : M T tensor := let* t' := vec_resize t w in tb_fill t' zero ;;; ret t'.
Definition mat_zeros (t : tensor) (h w : Z) : M T tensor := let* t' := mat_resize t h w in tb_fill t' zero ;;; ret t'.
Definition ten_zeros (t : tensor) (s : shape) : M T tensor := let* t' := ten_resize_shape t s in tb_fill t' zero ;;; ret t'.
(** range-for over a container, collecting the modified elements *)
Fixpoint mmap {A B} (f : A -> M T B) (l : list A) : M T (list B) :=
  match l with
  | [] => ret []
  | x :: t => let* y := f x in let* t' := mmap f t in ret (y :: t')
  end.
(** [container[i]] *)
Definition nth_of {A} (l : list A) (i : Z) : M T A :=
  match znth l i with Some x => ret x | None => fail BadCall end.

(** ** FullyConnected, Train (FullyConnected.hpp:101-253) *)
Record fc := mk_fc {
  f_isize : shape; f_osize : shape; f_B : tensor; f_W : tensor; f_act : option activation;
  f_value : tensor; f_buff : tensor; f_gradB : tensor; f_gradW : tensor;
  f_gradBs : tensor; f_gradWs : tensor; f_delta : tensor; f_acc : bool }.
(** 154-165 [prepare()] *)
Definition fc_prepare (L : fc) : M T fc :=
  let isz := f_isize L in let osz := f_osize L in
  let* value := ten_zeros (f_value L) osz in
  let* buff := vec_zeros (f_buff L) (s_width osz) in
  let* gradBs := vec_zeros (f_gradBs L) (s_width osz) in
  let* gradWs := mat_zeros (f_gradWs L) (s_width isz) (s_width osz) in
  let* gradB := vec_zeros (f_gradB L) (s_width osz) in
  let* gradW := mat_zeros (f_gradW L) (s_width isz) (s_width osz) in
  let* delta := ten_zeros (f_delta L) isz in
  ret (mk_fc isz osz (f_B L) (f_W L) (f_act L) value buff gradB gradW gradBs gradWs delta false).
(** 143-152 constructor *)
Definition fc_new (isize osize : Z) (act : option activation) : M T fc :=
  let* B := vec_zeros tb_default osize in
  let* W := mat_zeros tb_default isize osize in
  fc_prepare (mk_fc (shape3 1 1 isize) (shape3 1 1 osize) B W act tb_default tb_default tb_default
                    tb_default tb_default tb_default tb_default false).
(** 137-140 constructor from [set::Input], [set::Output] *)
Definition fc_new_set (input output : shape) (act : option activation) : M T fc :=
  fc_new (s_size input) (s_size output) act.
(** 182-194 *)
Definition fc_forward (L : fc) (input : tensor) : M T unit :=
  lin_dot_vm (f_buff L) input (f_W L) ;;;
  tb_assign OpAdd (f_buff L) (f_B L) ;;;
  with_act (f_act L) (fun a => call_f a (f_value L) (f_buff L)).
(** 196-215 *)
Definition fc_backward (L : fc) (input idelta : tensor) (full : bool) : M T unit :=
  with_act (f_act L) (fun a => call_df a (f_gradB L) (f_buff L)) ;;;
  tb_assign OpMul (f_gradB L) idelta ;;;
  lin_tensordot (f_gradW L) input (f_gradB L) ;;;
  if full then lin_dot_mv (f_delta L) (f_W L) (f_gradB L) else ret tt.
(** 217-230 *)
Definition fc_update (addr : ptr -> Z) (L : fc) (o : opt T) (alpha : T) : M T (opt T) :=
  let gradB := if f_acc L then f_gradBs L else f_gradB L in
  let gradW := if f_acc L then f_gradWs L else f_gradW L in
  (if negb (eqb alpha one) then tb_join gradB alpha ;;; tb_join gradW alpha else ret tt) ;;;
  let* o := opt_update addr o (rng (f_B L)) (rng gradB) in
  opt_update addr o (rng (f_W L)) (rng gradW).
Definition fc_set_acc (L : fc) (b : bool) : fc :=
  mk_fc (f_isize L) (f_osize L) (f_B L) (f_W L) (f_act L) (f_value L) (f_buff L) (f_gradB L) (f_gradW L)
        (f_gradBs L) (f_gradWs L) (f_delta L) b.
(** 232-238 *)
Definition fc_reset (L : fc) : M T fc :=
  tb_fill (f_gradBs L) zero ;;; tb_fill (f_gradWs L) zero ;;; ret (fc_set_acc L false).
(** 240-246 *)
Definition fc_accumulate (L : fc) : M T fc :=
  tb_assign OpAdd (f_gradBs L) (f_gradB L) ;;; tb_assign OpAdd (f_gradWs L) (f_gradW L) ;;; ret (fc_set_acc L true).

(** ** FullyConnected, Raw (FullyConnected.hpp:26-99).  The constructors from sizes do not compile
    when instantiated ([.fll] at line 62); objects come from deserialization. *)
Record xfc := mk_xfc {
  xf_isize : shape; xf_osize : shape; xf_B : tensor; xf_W : tensor; xf_act : option activation; xf_value : tensor }.
(** 68-71 *)
Definition xfc_prepare (L : xfc) : M T xfc :=
  let* value := ten_zeros (xf_value L) (xf_osize L) in
  ret (mk_xfc (xf_isize L) (xf_osize L) (xf_B L) (xf_W L) (xf_act L) value).
(** 82-93 *)
Definition xfc_forward (L : xfc) (input : tensor) : M T unit :=
  lin_dot_vm (xf_value L) input (xf_W L) ;;;
  tb_assign OpAdd (xf_value L) (xf_B L) ;;;
  with_act (xf_act L) (fun a => call_f a (xf_value L) (xf_value L)).

(** ** Convolutional, Train (Convolutional.hpp:137-351) *)
Record conv := mk_conv {
  c_isize : shape; c_osize : shape; c_pad : Z; c_vs : Z; c_hs : Z; c_B : tensor; c_Ws : list tensor;
  c_fcount : Z; c_fsize : shape;
  c_value : tensor; c_gradWs : list tensor; c_gradB : tensor; c_delta : tensor; c_buff : tensor }.
(** 188-190 (and 67-69): the output shape, in size_t; division by a zero stride is undefined *)
Definition conv_osize (size : shape) (fcount fh fw pad vs hs : Z) : shape :=
  shape3 fcount (u64 (u64 (s_height size - fh + 2 * pad) / vs + 1))
                (u64 (u64 (s_width size - fw + 2 * pad) / hs + 1)).
(** 204-226 [prepare()]; [Ws_.front()] of an empty container is undefined.  [gradWs_] is empty before the call
    (constructors and loading call it on a new object). *)
Definition conv_prepare (L : conv) : M T conv :=
  let fcount := Z.of_nat (length (c_Ws L)) in
  let* W0 := nth_of (c_Ws L) 0 in
  let fsize := t_shape W0 in
  let osz := c_osize L in
  let* value := ten_zeros (c_value L) osz in
  let* gradWs := mmap (fun t => ten_zeros t fsize) (repeat tb_default (length (c_Ws L))) in
  let* gradB := vec_zeros (c_gradB L) fcount in
  let* delta := ten_zeros (c_delta L) (c_isize L) in
  let* buff := ten_zeros (c_buff L)
      (shape3 (s_depth osz) (u64 (c_vs L * (s_height osz - 1) + 1)) (u64 (c_hs L * (s_width osz - 1) + 1))) in
  ret (mk_conv (c_isize L) osz (c_pad L) (c_vs L) (c_hs L) (c_B L) (c_Ws L) fcount fsize
               value gradWs gradB delta buff).
(** 183-201 constructor; sizes and strides come from the set:: objects (174-181), only padding.height is used *)
Definition conv_new (size : shape) (fcount fh fw pad vs hs : Z) : M T conv :=
  if (vs =? 0) || (hs =? 0) then fail BadCall else
  let* B := vec_zeros tb_default fcount in
  let* Ws := mmap (fun t => ten_zeros t (shape3 (s_depth size) fh fw)) (repeat tb_default (Z.to_nat fcount)) in
  conv_prepare (mk_conv size (conv_osize size fcount fh fw pad vs hs) pad vs hs B Ws 0 (shape3 0 0 0)
                        tb_default [] tb_default tb_default tb_default).

(** 237-267 (= 99-129 of the Raw class) *)
Definition conv_forward_loop (isize osize : shape) (pad vs hs : Z) (B : tensor) (Ws : list tensor)
    (fcount : Z) (fsize : shape) (value input : tensor) : M T unit :=
  mfor 0 fcount (fun f =>
  mfor 0 (s_height osize) (fun y =>
  mfor 0 (s_width osize) (fun x =>
    let* sum := tb_get B f in
    let* sum := mfold 0 (s_height fsize) (fun i sum =>
      mfold 0 (s_width fsize) (fun j sum =>
        let i0 := u64 (vs * y + i - pad) in
        let j0 := u64 (hs * x + j - pad) in
        if (s_height isize <=? i0) || (s_width isize <=? j0) then ret sum else
        mfold 0 (s_depth fsize) (fun c sum =>
          let* a := ten_get input c i0 j0 in
          let* W := nth_of Ws f in
          let* b := ten_get W c i j in
          ret (add sum (mul a b))) sum) sum) sum in
    ten_set value f y x sum))).
Definition conv_forward (L : conv) (input : tensor) : M T unit :=
  conv_forward_loop (c_isize L) (c_osize L) (c_pad L) (c_vs L) (c_hs L) (c_B L) (c_Ws L) (c_fcount L) (c_fsize L)
                    (c_value L) input.
(** [t(i,j,k) += x] *)
Definition ten_inc (t : tensor) (i j k : Z) (x : T) : M T unit :=
  let* o := ten_get t i j k in ten_set t i j k (add o x).
(** 269-276: the incoming delta, spread by the strides *)
Definition conv_spread (L : conv) (idelta : tensor) : M T unit :=
  mfor 0 (s_depth (t_shape (c_buff L))) (fun d =>
  mfor 0 (s_height (c_osize L)) (fun i =>
  mfor 0 (s_width (c_osize L)) (fun j =>
    let* x := ten_get idelta d i j in
    ten_set (c_buff L) d (u64 (i * c_vs L)) (u64 (j * c_hs L)) x))).
(** 278-304: gradients *)
Definition conv_grads (L : conv) (input : tensor) : M T unit :=
  let size := t_shape (c_buff L) in
  mfor 0 (c_fcount L) (fun f =>
  mfor 0 (s_height size) (fun y =>
  mfor 0 (s_width size) (fun x =>
    let* delta_value := ten_get (c_buff L) f y x in
    mfor 0 (s_height (c_fsize L)) (fun i =>
      mfor 0 (s_width (c_fsize L)) (fun j =>
        let i0 := u64 (i + y - c_pad L) in
        let j0 := u64 (j + x - c_pad L) in
        if (s_height (c_isize L) <=? i0) || (s_width (c_isize L) <=? j0) then ret tt else
        mfor 0 (s_depth (c_fsize L)) (fun c =>
          let* G := nth_of (c_gradWs L) f in
          let* a := ten_get input c i0 j0 in
          ten_inc G c i j (mul delta_value a)))) ;;;
    vec_inc (c_gradB L) f delta_value))).
(** 306-335: the delta passed on *)
Definition conv_delta (L : conv) : M T unit :=
  let size := t_shape (c_buff L) in
  let fh := s_height (c_fsize L) in
  let fw := s_width (c_fsize L) in
  let pad_i := u64 (fh - 1 - c_pad L) in
  let pad_j := u64 (fw - 1 - c_pad L) in
  mfor 0 (s_height (c_isize L)) (fun y =>
  mfor 0 (s_width (c_isize L)) (fun x =>
  mfor 0 (s_depth (c_fsize L)) (fun c =>
    let* sum := mfold 0 fh (fun i sum =>
      mfold 0 fw (fun j sum =>
        let i0 := u64 (y + i - pad_i) in
        let j0 := u64 (x + j - pad_j) in
        if (s_height size <=? i0) || (s_width size <=? j0) then ret sum else
        mfold 0 (c_fcount L) (fun f sum =>
          let* W := nth_of (c_Ws L) f in
          let* a := ten_get W c (u64 (fh - 1 - i)) (u64 (fw - 1 - j)) in
          let* b := ten_get (c_buff L) f i0 j0 in
          ret (add sum (mul a b))) sum) sum) zero in
    ten_set (c_delta L) c y x sum))).
Definition conv_backward (L : conv) (input idelta : tensor) : M T unit :=
  conv_spread L idelta ;;; conv_grads L input ;;; conv_delta L.
(** 337-344 *)
Definition conv_update (addr : ptr -> Z) (L : conv) (o : opt T) (alpha : T) : M T (opt T) :=
  mlist (c_gradWs L) (fun g _ => tb_join g alpha) tt ;;;
  tb_join (c_gradB L) alpha ;;;
  let* o := mfold 0 (Z.of_nat (length (c_Ws L))) (fun i o =>
    let* W := nth_of (c_Ws L) i in
    let* g := nth_of (c_gradWs L) i in
    opt_update addr o (rng W) (rng g)) o in
  opt_update addr o (rng (c_B L)) (rng (c_gradB L)).

(** ** Convolutional, Raw (Convolutional.hpp:25-135); [forward] is protected there but is called
    through the interface *)
Record xconv := mk_xconv {
  xc_isize : shape; xc_osize : shape; xc_pad : Z; xc_vs : Z; xc_hs : Z; xc_B : tensor; xc_Ws : list tensor;
  xc_fcount : Z; xc_fsize : shape; xc_value : tensor }.
(** 83-89 *)
Definition xconv_prepare (L : xconv) : M T xconv :=
  let* W0 := nth_of (xc_Ws L) 0 in
  let* value := ten_zeros (xc_value L) (xc_osize L) in
  ret (mk_xconv (xc_isize L) (xc_osize L) (xc_pad L) (xc_vs L) (xc_hs L) (xc_B L) (xc_Ws L)
                (Z.of_nat (length (xc_Ws L))) (t_shape W0) value).
(** 62-80 *)
Definition xconv_new (size : shape) (fcount fh fw pad vs hs : Z) : M T xconv :=
  if (vs =? 0) || (hs =? 0) then fail BadCall else
  let* B := vec_zeros tb_default fcount in
  let* Ws := mmap (fun t => ten_zeros t (shape3 (s_depth size) fh fw)) (repeat tb_default (Z.to_nat fcount)) in
  xconv_prepare (mk_xconv size (conv_osize size fcount fh fw pad vs hs) pad vs hs B Ws 0 (shape3 0 0 0) tb_default).
(** 99-129 *)
Definition xconv_forward (L : xconv) (input : tensor) : M T unit :=
  conv_forward_loop (xc_isize L) (xc_osize L) (xc_pad L) (xc_vs L) (xc_hs L) (xc_B L) (xc_Ws L)
                    (xc_fcount L) (xc_fsize L) (xc_value L) input.

(** ** MaxPooling, Train (MaxPooling.hpp:125-257) *)
Record pool := mk_pool {
  p_isize : shape; p_osize : shape; p_vs : Z; p_hs : Z; p_act : option activation;
  p_value : tensor; p_buff : tensor; p_mask : tensor; p_delta : tensor }.
(** 183-188 *)
Definition pool_prepare (L : pool) : M T pool :=
  let* delta := ten_zeros (p_delta L) (p_isize L) in
  let* mask := ten_zeros (p_mask L) (p_isize L) in
  let* buff := ten_zeros (p_buff L) (p_osize L) in
  ret (mk_pool (p_isize L) (p_osize L) (p_vs L) (p_hs L) (p_act L) (p_value L) buff mask delta).
(** 165-180 *)
Definition pool_new (d h w vs hs : Z) (act : option activation) : M T pool :=
  if (vs =? 0) || (hs =? 0) then fail BadCall else
  let osz := shape3 d (h / vs) (w / hs) in
  let* value := ten_zeros tb_default osz in
  pool_prepare (mk_pool (shape3 d h w) osz vs hs act value tb_default tb_default tb_default).
(** [for (i = 0; i < n; i += s)] with s > 0 (the increment is assumed not to wrap) *)
Definition mstride (n s : Z) (body : Z -> M T unit) : M T unit := mfor 0 ((n + s - 1) / s) (fun k => body (k * s)).
(** 201-239; the window scan returns (max, imax, jmax) *)
Definition pool_forward (L : pool) (input : tensor) : M T unit :=
  tb_fill (p_mask L) zero ;;;
  mfor 0 (s_depth (p_isize L)) (fun d =>
  mstride (s_height (p_isize L)) (p_vs L) (fun i =>
  mstride (s_width (p_isize L)) (p_hs L) (fun j =>
    let* max := ten_get input d i j in
    let* r := mfold i (i + p_vs L) (fun y r =>
      mfold j (j + p_hs L) (fun x r =>
        let* value := ten_get input d y x in
        ten_set (p_mask L) d y x zero ;;;
        ret (if ltb (fst (fst r)) value then (value, y, x) else r)) r) (max, i, j) in
    ten_set (p_value L) d (i / p_vs L) (j / p_hs L) (fst (fst r)) ;;;
    ten_set (p_mask L) d (snd (fst r)) (snd r) one))) ;;;
  with_act (p_act L) (fun a => call_f a (p_value L) (p_buff L)).
(** 241-250 *)
Definition pool_backward (L : pool) (idelta : tensor) : M T unit :=
  with_act (p_act L) (fun a => call_df a (p_buff L) (p_buff L)) ;;;
  tb_assign OpMul (p_buff L) idelta ;;;
  mfor 0 (s_depth (p_isize L)) (fun d =>
  mfor 0 (s_height (p_isize L)) (fun i =>
  mfor 0 (s_width (p_isize L)) (fun j =>
    let* b := ten_get (p_buff L) d (i / p_vs L) (j / p_hs L) in
    let* k := ten_get (p_mask L) d i j in
    ten_set (p_delta L) d i j (mul b k)))).

(** ** MaxPooling, Raw (MaxPooling.hpp:28-123) *)
Record xpool := mk_xpool {
  xp_isize : shape; xp_osize : shape; xp_vs : Z; xp_hs : Z; xp_act : option activation; xp_value : tensor }.
(** 63-78; [prepare()] (81) does nothing *)
Definition xpool_new (d h w vs hs : Z) (act : option activation) : M T xpool :=
  if (vs =? 0) || (hs =? 0) then fail BadCall else
  let osz := shape3 d (h / vs) (w / hs) in
  let* value := ten_zeros tb_default osz in
  ret (mk_xpool (shape3 d h w) osz vs hs act value).
(** 92-117 *)
Definition xpool_forward (L : xpool) (input : tensor) : M T unit :=
  mfor 0 (s_depth (xp_isize L)) (fun d =>
  mstride (s_height (xp_isize L)) (xp_vs L) (fun i =>
  mstride (s_width (xp_isize L)) (xp_hs L) (fun j =>
    let* max := ten_get input d i j in
    let* max := mfold i (i + xp_vs L) (fun y max =>
      mfold j (j + xp_hs L) (fun x max =>
        let* value := ten_get input d y x in
        ret (if ltb max value then value else max)) max) max in
    ten_set (xp_value L) d (i / xp_vs L) (j / xp_hs L) max))) ;;;
  with_act (xp_act L) (fun a => call_f a (xp_value L) (xp_value L)).

(** ** The layer interface (Layer/Base.hpp:24-103) *)
Inductive layer :=
| LFC (L : fc) | LConv (L : conv) | LPool (L : pool)
| LXFC (L : xfc) | LXConv (L : xconv) | LXPool (L : xpool).
Definition l_forward (L : layer) (input : tensor) : M T unit :=
  match L with
  | LFC L => fc_forward L input | LConv L => conv_forward L input | LPool L => pool_forward L input
  | LXFC L => xfc_forward L input | LXConv L => xconv_forward L input | LXPool L => xpool_forward L input
  end.
Definition l_value (L : layer) : tensor :=
  match L with
  | LFC L => f_value L | LConv L => c_value L | LPool L => p_value L
  | LXFC L => xf_value L | LXConv L => xc_value L | LXPool L => xp_value L
  end.
Definition l_isize (L : layer) : shape :=
  match L with
  | LFC L => f_isize L | LConv L => c_isize L | LPool L => p_isize L
  | LXFC L => xf_isize L | LXConv L => xc_isize L | LXPool L => xp_isize L
  end.
Definition l_osize (L : layer) : shape :=
  match L with
  | LFC L => f_osize L | LConv L => c_osize L | LPool L => p_osize L
  | LXFC L => xf_osize L | LXConv L => xc_osize L | LXPool L => xp_osize L
  end.
(** The training interface; on a Raw layer the [static_cast<ITrainLayer&>] of
    Training/UnifiedNet.hpp:209-213 is undefined behaviour. *)
Definition l_backward (L : layer) (input idelta : tensor) (full : bool) : M T unit :=
  match L with
  | LFC L => fc_backward L input idelta full
  | LConv L => conv_backward L input idelta
  | LPool L => pool_backward L idelta
  | _ => fail BadCall
  end.
Definition l_delta (L : layer) : M T tensor :=
  match L with
  | LFC L => ret (f_delta L) | LConv L => ret (c_delta L) | LPool L => ret (p_delta L)
  | _ => fail BadCall
  end.
(** Base.hpp:98-101: [update], [accumulate], [reset] do nothing unless overridden *)
Definition l_update (addr : ptr -> Z) (L : layer) (o : opt T) (alpha : T) : M T (opt T) :=
  match L with
  | LFC L => fc_update addr L o alpha
  | LConv L => conv_update addr L o alpha
  | LPool _ => ret o
  | _ => fail BadCall
  end.
Definition l_reset (L : layer) : M T layer :=
  match L with
  | LFC L => let* L := fc_reset L in ret (LFC L)
  | LConv _ | LPool _ => ret L
  | _ => fail BadCall
  end.
Definition l_accumulate (L : layer) : M T layer :=
  match L with
  | LFC L => let* L := fc_accumulate L in ret (LFC L)
  | LConv _ | LPool _ => ret L
  | _ => fail BadCall
  end.
End Layer.
