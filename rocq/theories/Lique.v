(** * Model of the tensor classes: /repo/include/Trixy/Lique/{Shape,TensorBase,Vector,Matrix,Tensor}.hpp
    and the loops of /repo/include/Trixy/Lique/Detail/FunctionDetail.hpp. *)
From Verif Require Import Mem Scalar.

Section Lique.
Context {T : Type} `{NT : Num T}.

(** ** Shape (Lique/Shape.hpp:14-44) *)
Record shape := mk_shape { s_depth : Z; s_height : Z; s_width : Z; s_size : Z }.

(** Shape.hpp:36-37 [Shape(d, h, w)]: size = d*h*w in size_t. *)
Definition shape3 (d h w : Z) : shape := mk_shape d h w (u64 (d * h * w)).
(** Shape.hpp:39-40 [Shape(h, w)]. *)
Definition shape2 (h w : Z) : shape := mk_shape 1 h w (u64 (h * w)).
(** Shape.hpp:42-43 [Shape(w)]. *)
Definition shape1 (w : Z) : shape := mk_shape 1 1 w w.

(** A tensor object of any of the six classes is a pointer and a shape
    (TensorBase.hpp:73-74).  Owning and viewing classes differ in their operations below. *)
Record tensor := mk_tensor { t_data : ptr; t_shape : shape }.
Definition t_size (t : tensor) : Z := s_size (t_shape t).

(** ** Loops (Lique/Detail/FunctionDetail.hpp) *)

(** FunctionDetail.hpp:55-59 [copy(first, last, src)], last - first = n. *)
Definition detail_copy (dst : ptr) (n : Z) (src : ptr) : M T unit :=
  mfor 0 n (fun i => let* x := load src i in store dst i x).

(** Same loop when [src] is [initializer_list::begin()] (an array outside our heap):
    reading past the list is undefined behaviour. *)
Definition detail_copy_list (dst : ptr) (n : Z) (l : list T) : M T unit :=
  mfor 0 n (fun i => match znth l i with
                     | Some x => store dst i x
                     | None => fail OutOfBounds end).

(** FunctionDetail.hpp:61-65 [fill(first, last, gen)]: [g i] is the value of the i-th call. *)
Definition detail_fill (dst : ptr) (n : Z) (g : Z -> T) : M T unit :=
  mfor 0 n (fun i => store dst i (g i)).

(** The operation functors cpy/add/sub/mul, FunctionDetail.hpp:19-23, 136-161. *)
Inductive binop := OpCpy | OpAdd | OpSub | OpMul.
(** three-operand form [dst = lhs op rhs] *)
Definition op_val (op : binop) (x y : T) : T :=
  match op with OpCpy => y | OpAdd => add x y | OpSub => sub x y | OpMul => mul x y end.
(** two-operand form [dst op= rhs]; [cpy] does not read [dst] *)
Definition op_assign (op : binop) (dst : ptr) (i : Z) (rhs : T) : M T unit :=
  match op with
  | OpCpy => store dst i rhs
  | _ => let* x := load dst i in store dst i (op_val op x rhs)
  end.

(** FunctionDetail.hpp:67-75 *)
Definition assign_val (dst : ptr) (n : Z) (op : binop) (v : T) : M T unit :=
  mfor 0 n (fun i => op_assign op dst i v).
(** FunctionDetail.hpp:77-87.  The operands are evaluated by reference: rhs is read first
    here; both reads see the same memory, so the order is immaterial. *)
Definition assign_src (dst : ptr) (n : Z) (op : binop) (src : ptr) : M T unit :=
  mfor 0 n (fun i => let* y := load src i in op_assign op dst i y).
(** FunctionDetail.hpp:89-99 *)
Definition assign_val_src (dst : ptr) (n : Z) (op : binop) (v : T) (rhs : ptr) : M T unit :=
  mfor 0 n (fun i => let* y := load rhs i in store dst i (op_val op v y)).
(** FunctionDetail.hpp:101-112 *)
Definition assign_lhs_rhs (dst : ptr) (n : Z) (op : binop) (lhs rhs : ptr) : M T unit :=
  mfor 0 n (fun i => let* x := load lhs i in let* y := load rhs i in
                     store dst i (op_val op x y)).
(** FunctionDetail.hpp:114-122 *)
Definition detail_apply (dst : ptr) (n : Z) (f : T -> T) : M T unit :=
  mfor 0 n (fun i => let* x := load dst i in store dst i (f x)).
(** FunctionDetail.hpp:124-134 *)
Definition detail_apply_src (dst : ptr) (n : Z) (f : T -> T) (src : ptr) : M T unit :=
  mfor 0 n (fun i => let* x := load src i in store dst i (f x)).

(** ** TensorBase (Lique/TensorBase.hpp).  Members that return [*this] return unit. *)

(** 128-132 [copy(const_pointer)] *)
Definition tb_copy_ptr (t : tensor) (src : ptr) : M T unit := detail_copy (t_data t) (t_size t) src.
(** 134-140 [copy(const Tensor&)]; [self] is [this == &tensor]. *)
Definition tb_copy (self : bool) (t src : tensor) : M T unit :=
  if self then ret tt else detail_copy (t_data t) (t_size t) (t_data src).
(** 142-146 [copy(initializer_list)] *)
Definition tb_copy_list (t : tensor) (l : list T) : M T unit :=
  detail_copy_list (t_data t) (t_size t) l.
(** 148-154 [fill(generator)] *)
Definition tb_fill_gen (t : tensor) (g : Z -> T) : M T unit := detail_fill (t_data t) (t_size t) g.
(** 156-160 [fill(value)] *)
Definition tb_fill (t : tensor) (v : T) : M T unit := assign_val (t_data t) (t_size t) OpCpy v.
(** 170-175 [apply(func)] *)
Definition tb_apply (t : tensor) (f : T -> T) : M T unit := detail_apply (t_data t) (t_size t) f.
(** 177-188 [apply(func, src)], [apply(func, rhs)] *)
Definition tb_apply_src (t : tensor) (f : T -> T) (src : ptr) : M T unit :=
  detail_apply_src (t_data t) (t_size t) f src.
(** 197-201, 216-220, 235-239 [add/sub/mul(rhs)] in place *)
Definition tb_assign (op : binop) (t rhs : tensor) : M T unit :=
  assign_src (t_data t) (t_size t) op (t_data rhs).
(** 203-207, 222-226, 241-245 [add/sub/mul(lhs, rhs)] *)
Definition tb_assign2 (op : binop) (t lhs rhs : tensor) : M T unit :=
  assign_lhs_rhs (t_data t) (t_size t) op (t_data lhs) (t_data rhs).
(** 254-258 [join(value)] *)
Definition tb_join (t : tensor) (v : T) : M T unit := assign_val (t_data t) (t_size t) OpMul v.
(** 260-264 [join(value, rhs)] *)
Definition tb_join_src (t : tensor) (v : T) (rhs : tensor) : M T unit :=
  assign_val_src (t_data t) (t_size t) OpMul v (t_data rhs).

(** Const value-returning forms (162-168 apply, 190-195 add, 209-214 sub, 228-233 mul,
    247-252 join): they build a *base view* [Tensor(size)] whose data pointer is null
    (constructor at 89-90 with the default argument) and write through it. *)
Definition tb_null (n : Z) : tensor := mk_tensor Null (shape1 n).
Definition tb_assign_const (op : binop) (t rhs : tensor) : M T tensor :=
  let v := tb_null (t_size t) in tb_assign2 op v t rhs ;;; ret v.
Definition tb_join_const (t : tensor) (x : T) : M T tensor :=
  let v := tb_null (t_size t) in tb_join_src v x t ;;; ret v.
Definition tb_apply_const (t : tensor) (f : T -> T) : M T tensor :=
  let v := tb_null (t_size t) in tb_apply_src v f (t_data t) ;;; ret v.

(** 272-276 swap *)
Definition tb_swap (a b : tensor) : tensor * tensor := (b, a).

(** 283-301 [at(i)], [operator()(i)] *)
Definition tb_get (t : tensor) (i : Z) : M T T := load (t_data t) i.
Definition tb_set (t : tensor) (i : Z) (x : T) : M T unit := store (t_data t) i x.

(** 77 default constructor: null data, shape (0,0,0) *)
Definition tb_default : tensor := mk_tensor Null (shape3 0 0 0).
(** 98-103 move constructor / 116-126 move assignment of the base: the source keeps its
    shape, only its pointer is cleared. *)
Definition tb_moved (t : tensor) : tensor := mk_tensor Null (t_shape t).

Definition with_data (t : tensor) (p : ptr) : tensor := mk_tensor p (t_shape t).

(** ** Owning Vector (Lique/Vector.hpp:26-156) *)

(** 35-38 *) Definition vec_destroy (t : tensor) : M T unit := free (t_data t).
(** 60-65 [Vector(initializer_list)] *)
Definition vec_of_list (l : list T) : M T tensor :=
  let s := shape1 (Z.of_nat (length l)) in
  let* p := alloc (s_size s) in
  let t := mk_tensor p s in tb_copy_list t l ;;; ret t.
(** 67-72 [Vector(width, data)] *)
Definition vec_of_ptr (w : Z) (src : ptr) : M T tensor :=
  let* p := alloc (s_size (shape1 w)) in
  let t := mk_tensor p (shape1 w) in tb_copy_ptr t src ;;; ret t.
(** 74-79 [Vector(width, value)] *)
Definition vec_fill (w : Z) (v : T) : M T tensor :=
  let* p := alloc (s_size (shape1 w)) in
  let t := mk_tensor p (shape1 w) in tb_fill t v ;;; ret t.
(** 81-85 [Vector(width)] *)
Definition vec_new (w : Z) : M T tensor :=
  let* p := alloc (s_size (shape1 w)) in ret (mk_tensor p (shape1 w)).
(** 87-92 [Vector(first, last)], last - first = n *)
Definition vec_of_range (first : ptr) (n : Z) : M T tensor := vec_of_ptr n first.
(** 94-98 copy constructor.  The base is default-constructed: shape (0,0,0); an array of
    the source's size is allocated, and [copy] copies [this->shape_.size] (= 0) elements. *)
Definition vec_copy_ctor (src : tensor) : M T tensor :=
  let* p := alloc (t_size src) in
  let t := with_data tb_default p in tb_copy_ptr t (t_data src) ;;; ret t.
(** 100-103 move constructor: (new object, moved-from source) *)
Definition vec_move_ctor (src : tensor) : tensor * tensor := (src, tb_moved src).
(** the part of a shape that Vector assignments update: width and size only *)
Definition vec_take_shape (s src : shape) : shape :=
  mk_shape (s_depth s) (s_height s) (s_width src) (s_size src).
(** 105-118 copy assignment *)
Definition vec_copy_assign (self : bool) (t src : tensor) : M T tensor :=
  if self then ret t else
    free (t_data t) ;;;
    let* p := alloc (t_size src) in
    let t' := mk_tensor p (vec_take_shape (t_shape t) (t_shape src)) in
    tb_copy_ptr t' (t_data src) ;;; ret t'.
(** 120-133 move assignment *)
Definition vec_move_assign (self : bool) (t src : tensor) : M T (tensor * tensor) :=
  if self then ret (t, src) else
    free (t_data t) ;;;
    ret (mk_tensor (t_data src) (vec_take_shape (t_shape t) (t_shape src)), tb_moved src).
(** 141-149 [resize(width)]: the new shape is (1, width, 1), i.e. height = width, width = 1 *)
Definition vec_resize (t : tensor) (w : Z) : M T tensor :=
  free (t_data t) ;;;
  let s := shape3 1 w 1 in
  let* p := alloc w in ret (mk_tensor p s).
(** 135-139 [resize(shape)] uses [shape.width] only *)
Definition vec_resize_shape (t : tensor) (s : shape) : M T tensor := vec_resize t (s_width s).
(** 151-155 [reshape(width)] *)
Definition vec_reshape (t : tensor) (w : Z) : tensor :=
  mk_tensor (t_data t) (mk_shape (s_depth (t_shape t)) (s_height (t_shape t)) w (t_size t)).

(** ** Owning Matrix (Lique/Matrix.hpp:25-172) *)

(** 34-37 *) Definition mat_destroy (t : tensor) : M T unit := free (t_data t).
(** 59-64 [Matrix(h, w, data)] *)
Definition mat_of_ptr (h w : Z) (src : ptr) : M T tensor :=
  let* p := alloc (s_size (shape2 h w)) in
  let t := mk_tensor p (shape2 h w) in tb_copy_ptr t src ;;; ret t.
(** 66-71 [Matrix(h, w, value)] *)
Definition mat_fill (h w : Z) (v : T) : M T tensor :=
  let* p := alloc (s_size (shape2 h w)) in
  let t := mk_tensor p (shape2 h w) in tb_fill t v ;;; ret t.
(** 73-77 [Matrix(h, w)] *)
Definition mat_new (h w : Z) : M T tensor :=
  let* p := alloc (s_size (shape2 h w)) in ret (mk_tensor p (shape2 h w)).
(** 39-57 constructors from a shape: [Base(depth*height, width)] *)
Definition mat_shape_fill (s : shape) (v : T) : M T tensor :=
  mat_fill (u64 (s_depth s * s_height s)) (s_width s) v.
Definition mat_shape_new (s : shape) : M T tensor :=
  mat_new (u64 (s_depth s * s_height s)) (s_width s).
Definition mat_shape_ptr (s : shape) (src : ptr) : M T tensor :=
  mat_of_ptr (u64 (s_depth s * s_height s)) (s_width s) src.
(** 79-84 [Matrix(first, last)] *)
Definition mat_of_range (first : ptr) (n : Z) : M T tensor := mat_of_ptr 1 n first.
(** 86-91 copy constructor: the base shape is (depth*height, width), the array has the
    source's size, [copy] copies the *base's* size *)
Definition mat_copy_ctor (src : tensor) : M T tensor :=
  let s := t_shape src in
  let* p := alloc (t_size src) in
  let t := mk_tensor p (shape2 (u64 (s_depth s * s_height s)) (s_width s)) in
  tb_copy_ptr t (t_data src) ;;; ret t.
(** 93 move constructor *)
Definition mat_move_ctor (src : tensor) : tensor * tensor := (src, tb_moved src).
(** Matrix assignments update height, width, size (not depth) *)
Definition mat_take_shape (s src : shape) : shape :=
  mk_shape (s_depth s) (s_height src) (s_width src) (s_size src).
(** 95-109 copy assignment: [copy] runs while [shape_.size] is still the *old* size *)
Definition mat_copy_assign (self : bool) (t src : tensor) : M T tensor :=
  if self then ret t else
    free (t_data t) ;;;
    let* p := alloc (t_size src) in
    let t' := with_data t p in
    tb_copy_ptr t' (t_data src) ;;;
    ret (mk_tensor p (mat_take_shape (t_shape t) (t_shape src))).
(** 111-125 move assignment *)
Definition mat_move_assign (self : bool) (t src : tensor) : M T (tensor * tensor) :=
  if self then ret (t, src) else
    free (t_data t) ;;;
    ret (mk_tensor (t_data src) (mat_take_shape (t_shape t) (t_shape src)), tb_moved src).
(** 127-145 [at(i, j)]: element offset i * width + j in size_t *)
Definition mat_at (s : shape) (i j : Z) : Z := u64 (i * s_width s) + j.
Definition mat_get (t : tensor) (i j : Z) : M T T := load (t_data t) (mat_at (t_shape t) i j).
Definition mat_set (t : tensor) (i j : Z) (x : T) : M T unit :=
  store (t_data t) (mat_at (t_shape t) i j) x.
(** 153-163 [resize(h, w)]: depth is left as it was *)
Definition mat_resize (t : tensor) (h w : Z) : M T tensor :=
  free (t_data t) ;;;
  let s := mk_shape (s_depth (t_shape t)) h w (u64 (h * w)) in
  let* p := alloc (s_size s) in ret (mk_tensor p s).
(** 147-151 [resize(shape)] *)
Definition mat_resize_shape (t : tensor) (s : shape) : M T tensor :=
  mat_resize t (s_height s) (s_width s).
(** 165-171 [reshape(h, w)] *)
Definition mat_reshape (t : tensor) (h w : Z) : tensor :=
  mk_tensor (t_data t) (mk_shape (s_depth (t_shape t)) h w (t_size t)).

(** ** Owning Tensor (Lique/Tensor.hpp:20-171) *)

(** 29-32 *) Definition ten_destroy (t : tensor) : M T unit := free (t_data t).
(** 34-53 constructors from a shape *)
Definition ten_shape_fill (s : shape) (v : T) : M T tensor :=
  let* p := alloc (s_size s) in
  let t := mk_tensor p s in tb_fill t v ;;; ret t.
Definition ten_shape_new (s : shape) : M T tensor :=
  let* p := alloc (s_size s) in ret (mk_tensor p s).
Definition ten_shape_ptr (s : shape) (src : ptr) : M T tensor :=
  let* p := alloc (s_size s) in
  let t := mk_tensor p s in tb_copy_ptr t src ;;; ret t.
(** 54-72 constructors from dimensions *)
Definition ten_of_ptr (d h w : Z) (src : ptr) : M T tensor := ten_shape_ptr (shape3 d h w) src.
Definition ten_fill (d h w : Z) (v : T) : M T tensor := ten_shape_fill (shape3 d h w) v.
Definition ten_new (d h w : Z) : M T tensor := ten_shape_new (shape3 d h w).
(** 74-79 [Tensor(first, last)], last - first = n *)
Definition ten_of_range (first : ptr) (n : Z) : M T tensor := ten_of_ptr 1 1 n first.
(** 81-86 [Tensor(initializer_list)] *)
Definition ten_of_list (l : list T) : M T tensor :=
  let s := shape3 1 1 (Z.of_nat (length l)) in
  let* p := alloc (s_size s) in
  let t := mk_tensor p s in tb_copy_list t l ;;; ret t.
(** 88-94 copy constructor *)
Definition ten_copy_ctor (src : tensor) : M T tensor :=
  let* p := alloc (t_size src) in
  let t := mk_tensor p (t_shape src) in tb_copy_ptr t (t_data src) ;;; ret t.
(** 96 move constructor *)
Definition ten_move_ctor (src : tensor) : tensor * tensor := (src, tb_moved src).
(** 98-110 copy assignment: [copy] runs while [shape_] is still the *old* shape *)
Definition ten_copy_assign (self : bool) (t src : tensor) : M T tensor :=
  if self then ret t else
    free (t_data t) ;;;
    let* p := alloc (t_size src) in
    let t' := with_data t p in
    tb_copy_ptr t' (t_data src) ;;;
    ret (mk_tensor p (t_shape src)).
(** 112-124 move assignment *)
Definition ten_move_assign (self : bool) (t src : tensor) : M T (tensor * tensor) :=
  if self then ret (t, src) else
    free (t_data t) ;;;
    ret (src, tb_moved src).
(** 126-144 [at(i, j, k)] *)
Definition ten_at (s : shape) (i j k : Z) : Z := u64 ((i * s_height s + j) * s_width s) + k.
Definition ten_get (t : tensor) (i j k : Z) : M T T := load (t_data t) (ten_at (t_shape t) i j k).
Definition ten_set (t : tensor) (i j k : Z) (x : T) : M T unit :=
  store (t_data t) (ten_at (t_shape t) i j k) x.
(** 152-160 [resize(d, h, w)] *)
Definition ten_resize (t : tensor) (d h w : Z) : M T tensor :=
  free (t_data t) ;;;
  let s := shape3 d h w in
  let* p := alloc (s_size s) in ret (mk_tensor p s).
(** 146-150 [resize(shape)] *)
Definition ten_resize_shape (t : tensor) (s : shape) : M T tensor :=
  ten_resize t (s_depth s) (s_height s) (s_width s).
(** 162-169 [reshape(d, h, w)] *)
Definition ten_reshape (t : tensor) (d h w : Z) : tensor :=
  mk_tensor (t_data t) (mk_shape d h w (t_size t)).

(** ** Views (Vector.hpp:157-217, Matrix.hpp:173-257, Tensor.hpp:172-232).
    Constructing, copying and destroying views never touches memory. *)
(** Vector.hpp:169-182 *)
Definition vview_shape (s : shape) (p : ptr) : tensor := mk_tensor p (shape1 (s_width s)).
Definition vview_new (w : Z) (p : ptr) : tensor := mk_tensor p (shape1 w).
Definition vview_range (first : ptr) (n : Z) : tensor := mk_tensor first (shape1 n).
(** Matrix.hpp:185-198 *)
Definition mview_shape (s : shape) (p : ptr) : tensor :=
  mk_tensor p (shape2 (u64 (s_depth s * s_height s)) (s_width s)).
Definition mview_new (h w : Z) (p : ptr) : tensor := mk_tensor p (shape2 h w).
Definition mview_range (first : ptr) (n : Z) : tensor := mk_tensor first (shape2 1 n).
(** Tensor.hpp:183-196 *)
Definition tview_shape (s : shape) (p : ptr) : tensor := mk_tensor p s.
Definition tview_new (d h w : Z) (p : ptr) : tensor := mk_tensor p (shape3 d h w).
Definition tview_range (first : ptr) (n : Z) : tensor := mk_tensor first (shape3 1 1 n).
(** copy assignment of views: Vector.hpp:187-197, Matrix.hpp:203-214, Tensor.hpp:201 *)
Definition vview_assign (self : bool) (t src : tensor) : tensor :=
  if self then t else mk_tensor (t_data src) (vec_take_shape (t_shape t) (t_shape src)).
Definition mview_assign (self : bool) (t src : tensor) : tensor :=
  if self then t else mk_tensor (t_data src) (mat_take_shape (t_shape t) (t_shape src)).
Definition tview_assign (self : bool) (t src : tensor) : tensor :=
  if self then t else src.
End Lique.

Arguments OpCpy : clear implicits.
