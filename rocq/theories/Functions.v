(** * Model of /repo/include/Trixy/Neuro/Functional/Function/{ActivationLess,Activation,Loss}.hpp
    (macros expanded from Detail/MacroScope.hpp).

    A [utility::Range] is a pointer and a size.  Decimal literals go through [lit]. *)
From Coq Require Import QArith.
From Verif Require Import Mem Scalar.
Open Scope Z_scope.

Section Functions.
Context {T : Type} `{NT : Num T}.
Definition gt0 (x : T) : bool := ltb zero x.     (* x > 0. *)
Definition half : T := lit (1#2).                (* 0.5 *)
Notation L q := (lit q%Q).

(** ** Scalar activations, ActivationLess.hpp *)
(** 24-27 *) Definition identity (x : T) : T := x.
(** 29-32 *) Definition identity_derived (x : T) : T := one.
(** 34-37 *) Definition relu (x : T) : T := if gt0 x then x else zero.
(** 39-42 *) Definition relu_derived (x : T) : T := if gt0 x then one else zero.
(** 44-48 *) Definition elu (x : T) : T := if gt0 x then x else mul (L (2#10)) (nexpm1 x).
(** 50-54 *) Definition elu_derived (x : T) : T := if gt0 x then one else mul (L (2#10)) (nexp x).
(** 56-60 *) Definition lrelu (x : T) : T := if gt0 x then x else mul (L (1#100)) x.
(** 62-66 *) Definition lrelu_derived (x : T) : T := if gt0 x then one else L (1#100).
(** 68-74 *) Definition selu (x : T) : T :=
  if gt0 x then mul (L (1050701#1000000)) x else mul (L (1758099#1000000)) (nexpm1 x).
(** 76-82 *) Definition selu_derived (x : T) : T :=
  if gt0 x then L (1050701#1000000) else mul (L (1758099#1000000)) (nexp x).
(** 84-90 *) Definition gelu (x : T) : T :=
  let a := L (797885#1000000) in let b := L (356774#10000000) in
  mul (mul half x) (add (ntanh (add (mul x a) (mul (mul (mul x x) x) b))) one).
(** 92-104 *) Definition gelu_derived (x : T) : T :=
  let a := L (797885#1000000) in let b := L (356774#10000000) in
  let c := L (535161#10000000) in let d := L (398942#1000000) in
  let x3 := mul (mul x x) x in
  let y := add (mul a x3) (mul b x) in
  let sch := div one (ncosh y) in
  add (add (mul half (ntanh y)) (mul (mul (add (mul c x3) (mul d x)) sch) sch)) half.
(** 106-109 *) Definition sigmoid (x : T) : T := div one (add (nexp (opp x)) one).
(** 111-114 *) Definition sigmoid_derived (x : T) : T := div half (add (ncosh x) one).
(** 116-119 *) Definition sigmoid_derived_self (x : T) : T := mul x (sub one x).
(** 121-124 *) Definition tanh_f (x : T) : T := ntanh x.
(** 126-130 *) Definition tanh_derived (x : T) : T := let sech := div one (ncosh x) in mul sech sech.
(** 132-135 *) Definition softsign (x : T) : T := div x (add (nabs x) one).
(** 137-141 *) Definition softsign_derived (x : T) : T := let f := div one (add (nabs x) one) in mul f f.
(** 143-146 *) Definition softplus (x : T) : T := nlog (add (nexp x) one).
(** 148-151 *) Definition softplus_derived (x : T) : T := div one (add (nexp (opp x)) one).
(** 153-156 *) Definition swish (x : T) : T := div x (add (nexp (opp x)) one).
(** 158-163 *) Definition swish_derived (x : T) : T :=
  let a := nexp (opp x) in let b := add a one in div (add (mul a x) b) (mul b b).
(** 165-170 *) Definition mod_relu (x : T) : T :=
  if ltb x zero then mul (L (1#100)) x
  else if ltb one x then add (L (99#100)) (mul (L (1#100)) x) else x.
(** 171-174 *) Definition mod_relu_derived (x : T) : T :=
  if ltb x zero || ltb one x then L (1#100) else one.
(** 176-179 *) Definition mod_tanh (x : T) : T :=
  if ltb x zero then mul (L (1#100)) (ntanh x) else ntanh x.
(** 181-186 *) Definition mod_tanh_derived (x : T) : T :=
  let s := div one (ncosh x) in let sech2 := mul s s in
  if ltb x zero then mul (L (1#100)) sech2 else sech2.

(** ** Activation.hpp *)
(** 143-162: the activation classes.  The scalar ones and SoftMax. *)
Inductive scalar_activation :=
| Identity | ReLU | ELU | LReLU | SELU | GELU | Sigmoid | Tanh | SoftSign | SoftPlus | Swish | ModRelu | ModTanh.
Inductive activation := Scalar (a : scalar_activation) | SoftMax.
(** 143-160, first and second function argument of the macro *)
Definition scalar_f (a : scalar_activation) : T -> T :=
  match a with
  | Identity => identity | ReLU => relu | ELU => elu | LReLU => lrelu | SELU => selu | GELU => gelu
  | Sigmoid => sigmoid | Tanh => tanh_f | SoftSign => softsign | SoftPlus => softplus | Swish => swish
  | ModRelu => mod_relu | ModTanh => mod_tanh
  end.
Definition scalar_df (a : scalar_activation) : T -> T :=
  match a with
  | Identity => identity_derived | ReLU => relu_derived | ELU => elu_derived | LReLU => lrelu_derived
  | SELU => selu_derived | GELU => gelu_derived | Sigmoid => sigmoid_derived | Tanh => tanh_derived
  | SoftSign => softsign_derived | SoftPlus => softplus_derived | Swish => swish_derived
  | ModRelu => mod_relu_derived | ModTanh => mod_tanh_derived
  end.
(** Detail/MacroScope.hpp:6-13 [name(result, input)] *)
Definition apply_range (g : T -> T) (result : ptr) (n : Z) (input : ptr) : M T unit :=
  mfor 0 n (fun i => let* x := load input i in store result i (g x)).
(** 77-130 [softmax(result, input)] *)
Definition softmax (result : ptr) (n : Z) (input : ptr) (ni : Z) : M T unit :=
  let* first := load input 0 in
  let* max := mfold 1 ni (fun i max => let* x := load input i in ret (if ltb max x then x else max)) first in
  mfor 0 n (fun i => let* x := load input i in store result i (nexp (sub x max))) ;;;
  let* denominator := mfold 0 n (fun i acc => let* x := load result i in ret (add acc x)) zero in
  let denominator := div one denominator in
  mfor 0 n (fun i => let* x := load result i in store result i (mul x denominator)).
(** 42-75 [unstable_softmax] *)
Definition unstable_softmax (result : ptr) (n : Z) (input : ptr) : M T unit :=
  mfor 0 n (fun i => let* x := load input i in store result i (nexp x)) ;;;
  let* denominator := mfold 0 n (fun i acc => let* x := load result i in ret (add acc x)) zero in
  let denominator := div one denominator in
  mfor 0 n (fun i => let* x := load result i in store result i (mul x denominator)).
(** 132-141 *)
Definition softmax_derived (result : ptr) (n : Z) : M T unit := mfor 0 n (fun i => store result i one).

(** Detail/MacroScope.hpp:51-52 virtual [f] and [df]; ranges ([result], [n]) and ([input], [ni]) *)
Definition act_f (a : activation) (result : ptr) (n : Z) (input : ptr) (ni : Z) : M T unit :=
  match a with
  | Scalar s => apply_range (scalar_f s) result n input
  | SoftMax => softmax result n input ni
  end.
Definition act_df (a : activation) (result : ptr) (n : Z) (input : ptr) (ni : Z) : M T unit :=
  match a with
  | Scalar s => apply_range (scalar_df s) result n input
  | SoftMax => softmax_derived result n
  end.

(** ** Loss.hpp.  The result scalar of [f] is returned.  The function-local [static Precision f]
    of lines 64 and 145 is an ordinary local here (it is written before it is read; sharing it
    between threads is not modelled). *)
Definition epsilon : T := L (1#1000000000).
(** the summing loop of all [f]s, over [n = y_true.size()] elements *)
Definition loss_loop (n : Z) (target pred : ptr) (step : T -> T -> T -> T) : M T T :=
  mfold 0 n (fun i acc => let* t := load target i in let* p := load pred i in ret (step acc t p)) zero.
(** 21-39 *) Definition cce (n : Z) (target pred : ptr) : M T T :=
  loss_loop n target pred (fun acc t p => sub acc (mul t (nlog (add p epsilon)))).
(** 61-82 *) Definition mse (n : Z) (target pred : ptr) : M T T :=
  let* r := loss_loop n target pred (fun acc t p => let f := sub t p in add acc (mul f f)) in ret (mul r half).
(** 102-118 *) Definition mae (n : Z) (target pred : ptr) : M T T :=
  loss_loop n target pred (fun acc t p => add acc (nabs (sub p t))).
(** 142-165 *) Definition msle (n : Z) (target pred : ptr) : M T T :=
  let* r := loss_loop n target pred (fun acc t p =>
    let f := div (add p one) (add t one) in let f := nlog f in add acc (mul f f)) in ret (mul r half).
(** 187-205 *) Definition bce (n : Z) (target pred : ptr) : M T T :=
  loss_loop n target pred (fun acc t p =>
    sub acc (add (mul t (nlog (add p epsilon))) (mul (sub one t) (nlog1p (sub epsilon p))))).
(** 246-264 *) Definition nll (n : Z) (target pred : ptr) : M T T :=
  let* r := loss_loop n target pred (fun acc t p => add acc (mul t p)) in ret (opp (nlog r)).
(** 284-300 *) Definition logcosh (n : Z) (target pred : ptr) : M T T :=
  loss_loop n target pred (fun acc t p => add acc (nlog (ncosh (sub p t)))).

(** loops of the [..._derived] functions that write each element once *)
Definition dloss_loop (result : ptr) (n : Z) (target pred : ptr) (g : T -> T -> T) : M T unit :=
  mfor 0 n (fun i => let* t := load target i in let* p := load pred i in store result i (g t p)).
(** 41-59 *) Definition cce_derived (result : ptr) (n : Z) (target pred : ptr) : M T unit :=
  dloss_loop result n target pred (fun t p => div (opp t) (add p epsilon)).
(** 84-100 *) Definition mse_derived (result : ptr) (n : Z) (target pred : ptr) : M T unit :=
  dloss_loop result n target pred (fun t p => sub p t).
(** 120-140 *) Definition mae_derived (result : ptr) (n : Z) (target pred : ptr) : M T unit :=
  mfor 0 n (fun i =>
    let* t := load target i in let* p := load pred i in
    store result i (sub t p) ;;;
    let* x := load result i in
    store result i (if ltb x zero then opp one else if gt0 x then one else zero)).
(** 167-185 *) Definition msle_derived (result : ptr) (n : Z) (target pred : ptr) : M T unit :=
  mfor 0 n (fun i =>
    let* p := load pred i in
    store result i (add p one) ;;;
    let* x := load result i in
    let* t := load target i in
    store result i (div (nlog (div x (add t one))) x)).
(** 207-226 *) Definition bce_derived (result : ptr) (n : Z) (target pred : ptr) : M T unit :=
  let alpha := sub epsilon one in
  dloss_loop result n target pred (fun t p => sub (div (sub t one) (add p alpha)) (div t (add p epsilon))).
(** 228-244 *) Definition bce_derived_sigmoid (result : ptr) (n : Z) (target pred : ptr) : M T unit :=
  dloss_loop result n target pred (fun t p => add (mul t (sub p one)) (mul p (sub one t))).
(** 266-282 *) Definition nll_derived_softmax (result : ptr) (n : Z) (target pred : ptr) : M T unit :=
  dloss_loop result n target pred (fun t p => sub p t).
(** 302-318 *) Definition logcosh_derived (result : ptr) (n : Z) (target pred : ptr) : M T unit :=
  dloss_loop result n target pred (fun t p => ntanh (sub p t)).

(** 320-326: the loss classes (note that CCE uses mean_squared_error_derived) *)
Inductive loss := MSE | MAE | CCE | BCE | MSLE | NLL | LC.
Definition loss_f (l : loss) (n : Z) (y_true y_pred : ptr) : M T T :=
  match l with
  | MSE => mse n y_true y_pred | MAE => mae n y_true y_pred | CCE => cce n y_true y_pred
  | BCE => bce n y_true y_pred | MSLE => msle n y_true y_pred | NLL => nll n y_true y_pred
  | LC => logcosh n y_true y_pred
  end.
Definition loss_df (l : loss) (result : ptr) (n : Z) (y_true y_pred : ptr) : M T unit :=
  match l with
  | MSE => mse_derived result n y_true y_pred | MAE => mae_derived result n y_true y_pred
  | CCE => mse_derived result n y_true y_pred | BCE => bce_derived_sigmoid result n y_true y_pred
  | MSLE => msle_derived result n y_true y_pred | NLL => nll_derived_softmax result n y_true y_pred
  | LC => logcosh_derived result n y_true y_pred
  end.
End Functions.
