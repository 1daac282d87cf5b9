(** * Model of /repo/include/Trixy/Neuro/Functional/Optimizer/{Interface,GradDescent,StoGradDescent,
    Momentum,Nestorov,AdaGrad,RMSProp,Adam}.hpp and Range/Unified.hpp (the buffers).

    Not modelled: the reset() members (they call ->fill on map entries and do not compile when
    instantiated), IOptimizer::learning_rate() const (passes a const void* to void* const; does not
    compile when instantiated), destruction of an optimizer. *)
From Coq Require Import QArith.
From Verif Require Import Mem Scalar Lique.
Open Scope Z_scope.

Section Optimizer.
Context {T : Type} `{NT : Num T}.

(** Detail/FunctionDetail.hpp:52-56 *)
Definition invert_sqrt (x : T) : T := div one (nsqrt (add (lit (1#1000000000)) x)).

(** A range: pointer and size (Range/View.hpp, Range/Unified.hpp). *)
Definition range : Type := ptr * Z.
(** [std::unordered_map<uintptr_t, RangeUnified>]; an absent entry is what [operator[]] would
    insert: Range() = (nullptr, 0), Unified.hpp:31. *)
Definition table : Type := Z -> range.
Definition table_new : table := fun _ => (Null, 0).

(** The optimizer classes with the constants fixed at construction. *)
Inductive opt_kind :=
| GradDescent
| StoGradDescent (alpha : T)
| Momentum (momentum : T)
| Nestorov (momentum : T)
| AdaGrad
| RMSProp (beta rbeta : T)
| Adam (beta1 beta2 rbeta1 rbeta2 : T).
(** Members; [o_m] is optimized_table_ (optimized_m_table_), [o_s] is optimized_s_table_. *)
Record opt := mk_opt {
  o_kind : opt_kind; o_lr : T; o_buff : table; o_m : table; o_s : table; o_t1 : T; o_t2 : T }.
Definition opt_new (k : opt_kind) (lr : T) : opt := mk_opt k lr table_new table_new table_new one one.
(** constructors *)
(** GradDescent.hpp:42-49 *) Definition grad_descent (lr : T) : opt := opt_new GradDescent lr.
(** StoGradDescent.hpp:44-53 *) Definition sto_grad_descent (lr decay : T) : opt :=
  opt_new (StoGradDescent (sub one (mul lr decay))) lr.
(** Momentum.hpp:51-62 *) Definition momentum_opt (lr momentum : T) : opt := opt_new (Momentum momentum) lr.
(** Nestorov.hpp:49-60 *) Definition nestorov_opt (lr momentum : T) : opt := opt_new (Nestorov momentum) lr.
(** AdaGrad.hpp:49-58 *) Definition ada_grad (lr : T) : opt := opt_new AdaGrad lr.
(** RMSProp.hpp:50-63 *) Definition rms_prop (lr beta : T) : opt := opt_new (RMSProp beta (sub one beta)) lr.
(** Adam.hpp:55-76 *) Definition adam (lr beta1 beta2 : T) : opt :=
  opt_new (Adam beta1 beta2 (sub one beta1) (sub one beta2)) lr.

(** [learning_rate(value)] of every class, e.g. Momentum.hpp:79 *)
Definition set_learning_rate (o : opt) (lr : T) : opt :=
  mk_opt (o_kind o) lr (o_buff o) (o_m o) (o_s o) (o_t1 o) (o_t2 o).

(** Interface.hpp:75-85 [get(table, range)]: [key] is the address of the range's first element.
    resize(size, value): delete[] of the null pointer, new, fill (Unified.hpp:56-68). *)
Definition opt_get (t : table) (key n : Z) : M T (range * table) :=
  match fst (t key) with
  | Null =>
      let* p := alloc n in
      assign_val p n OpCpy zero ;;;
      ret ((p, n), fun k => if k =? key then (p, n) else t k)
  | _ => ret (t key, t)
  end.

(** element-wise calls on ranges: Linear.hpp:322-424, the loop runs over the result's size *)
Definition r_join (r : range) (v : T) : M T unit := assign_val (fst r) (snd r) OpMul v.
Definition r_join_src (r : range) (v : T) (rhs : range) : M T unit := assign_val_src (fst r) (snd r) OpMul v (fst rhs).
Definition r_op (op : binop) (r rhs : range) : M T unit := assign_src (fst r) (snd r) op (fst rhs).
Definition r_op2 (op : binop) (r lhs rhs : range) : M T unit := assign_lhs_rhs (fst r) (snd r) op (fst lhs) (fst rhs).
Definition r_apply (r : range) (f : T -> T) : M T unit := detail_apply (fst r) (snd r) f.
Definition r_apply_src (r : range) (f : T -> T) (rhs : range) : M T unit := detail_apply_src (fst r) (snd r) f (fst rhs).

(** [update(param, grad)]; [addr p] is the machine address of [p]. *)
Definition opt_update (addr : ptr -> Z) (o : opt) (param grad : range) : M T opt :=
  let key := addr (fst param) in
  let lr := o_lr o in
  match o_kind o with
  | GradDescent =>                                   (* GradDescent.hpp:54-59 *)
      r_join grad lr ;;; r_op OpSub param grad ;;; ret o
  | StoGradDescent alpha =>                          (* StoGradDescent.hpp:58-64 *)
      r_join grad lr ;;; r_join param alpha ;;; r_op OpSub param grad ;;; ret o
  | Momentum momentum =>                             (* Momentum.hpp:81-94 *)
      let* b := opt_get (o_buff o) key (snd param) in let '(buff, tb) := b in
      let* v := opt_get (o_m o) key (snd param) in let '(optimized, tm) := v in
      r_join optimized momentum ;;;
      r_join_src buff lr grad ;;;
      r_op OpSub optimized buff ;;;
      r_op OpAdd param optimized ;;;
      ret (mk_opt (o_kind o) lr tb tm (o_s o) (o_t1 o) (o_t2 o))
  | Nestorov momentum =>                             (* Nestorov.hpp:79-94 *)
      let* b := opt_get (o_buff o) key (snd param) in let '(buff, tb) := b in
      let* v := opt_get (o_m o) key (snd param) in let '(optimized, tm) := v in
      r_join optimized momentum ;;;
      r_join_src buff lr grad ;;;
      r_op OpSub optimized buff ;;;
      r_op OpSub param buff ;;;
      r_join_src buff momentum optimized ;;;
      r_op OpAdd param buff ;;;
      ret (mk_opt (o_kind o) lr tb tm (o_s o) (o_t1 o) (o_t2 o))
  | AdaGrad =>                                       (* AdaGrad.hpp:77-93 *)
      let* b := opt_get (o_buff o) key (snd param) in let '(buff, tb) := b in
      let* v := opt_get (o_m o) key (snd param) in let '(optimized, tm) := v in
      r_op2 OpMul buff grad grad ;;;
      r_op OpAdd optimized buff ;;;
      r_apply_src buff invert_sqrt optimized ;;;
      r_op OpMul buff grad ;;;
      r_join buff lr ;;;
      r_op OpSub param buff ;;;
      ret (mk_opt (o_kind o) lr tb tm (o_s o) (o_t1 o) (o_t2 o))
  | RMSProp beta rbeta =>                            (* RMSProp.hpp:82-100 *)
      let* b := opt_get (o_buff o) key (snd param) in let '(buff, tb) := b in
      let* v := opt_get (o_m o) key (snd param) in let '(optimized, tm) := v in
      r_join optimized beta ;;;
      r_op2 OpMul buff grad grad ;;;
      r_join buff rbeta ;;;
      r_op OpAdd optimized buff ;;;
      r_apply_src buff invert_sqrt optimized ;;;
      r_op OpMul buff grad ;;;
      r_join buff lr ;;;
      r_op OpSub param buff ;;;
      ret (mk_opt (o_kind o) lr tb tm (o_s o) (o_t1 o) (o_t2 o))
  | Adam beta1 beta2 rbeta1 rbeta2 =>                (* Adam.hpp:103-138 *)
      let* b := opt_get (o_buff o) key (snd param) in let '(buff, tb) := b in
      let* v := opt_get (o_m o) key (snd param) in let '(optimized_m, tm) := v in
      let* s := opt_get (o_s o) key (snd param) in let '(optimized_s, ts) := s in
      let t1 := mul (o_t1 o) beta1 in
      let t2 := mul (o_t2 o) beta2 in
      r_join optimized_m beta1 ;;;
      r_join_src buff rbeta1 grad ;;;
      r_op OpAdd optimized_m buff ;;;
      r_join optimized_s beta2 ;;;
      r_op2 OpMul buff grad grad ;;;
      r_join buff rbeta2 ;;;
      r_op OpAdd optimized_s buff ;;;
      r_join_src buff (div one (sub one t2)) optimized_s ;;;
      r_apply buff invert_sqrt ;;;
      r_op OpMul buff optimized_m ;;;
      r_join buff (div lr (sub one t1)) ;;;
      r_op OpSub param buff ;;;
      ret (mk_opt (o_kind o) lr tb tm ts t1 t2)
  end.
End Optimizer.
Arguments opt_kind T : clear implicits.
Arguments opt T : clear implicits.
