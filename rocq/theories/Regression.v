(** * Model of /repo/include/Trixy/Neuro/Regression/{Linear,Polynomial}.hpp and
      /repo/include/Trixy/Neuro/Training/{Linear,Polynomial}Regression.hpp

    [Training::loss] (LinearRegression.hpp:59-63, PolynomialRegression.hpp:67-71) calls a member
    [reg.loss] that no regression class has; it does not compile and is not modelled.
    Operands are evaluated in the order written; temporaries are released in reverse order of
    construction at the end of the full expression, locals at the end of their block. *)
From Verif Require Import Mem Scalar Lique Linear.
Open Scope Z_scope.

(** Linear.hpp:41-45, Polynomial.hpp:41-45 (the member [linear] has no state) *)
Record reg : Type := mk_reg { r_W : tensor; r_N : Z }.

Section Regression.
Context {T : Type} `{NT : Num T}.

(** Linear.hpp:48-51 / Polynomial.hpp:48-51: [W(size + 1), N(size + 1)] *)
Definition reg_new (size : Z) : M T reg :=
  let* W := vec_new (u64 (size + 1)) in ret (mk_reg W (u64 (size + 1))).
(** Linear.hpp:58-62 / Polynomial.hpp:58-62 *)
Definition reg_reset (r : reg) (new_size : Z) : M T reg :=
  let N := u64 (new_size + 1) in
  let* W := vec_resize (r_W r) N in ret (mk_reg W N).
(** Linear.hpp:53-56 / Polynomial.hpp:53-56 [init(Vector weight)]: the body and the release of
    the parameter object. *)
Definition reg_init_body (r : reg) (weight : tensor) : M T unit :=
  tb_copy false (r_W r) weight ;;; vec_destroy weight.
(** called with a temporary: the parameter is the temporary (elided copy) *)
Definition reg_init_temporary (r : reg) (weight : tensor) : M T unit := reg_init_body r weight.
(** called with an lvalue: the parameter is made by Vector's copy constructor *)
Definition reg_init_lvalue (r : reg) (w : tensor) : M T unit :=
  let* weight := vec_copy_ctor w in reg_init_body r weight.

(** ** Linear regression *)
(** Linear.hpp:64-74 [feedforward_sample] *)
Definition linreg_sample (r : reg) (sample : tensor) : M T T :=
  let* w0 := tb_get (r_W r) 0 in
  mfold 1 (r_N r) (fun i result =>
    let* x := tb_get sample (u64 (i - 1)) in
    let* w := tb_get (r_W r) i in ret (add result (mul x w))) w0.
(** Linear.hpp:78-85, LinearRegression.hpp:38-45: the matrix [X] *)
Definition linreg_design (idata : tensor) (N : Z) : M T tensor :=
  let* X := mat_new (s_height (t_shape idata)) N in
  mfor 0 (s_height (t_shape X)) (fun i =>
    mat_set X i 0 one ;;;
    mfor 1 N (fun j => let* x := mat_get idata i (u64 (j - 1)) in mat_set X i j x)) ;;;
  ret X.
(** Linear.hpp:76-88 *)
Definition linreg_feedforward (r : reg) (idata : tensor) : M T tensor :=
  let* X := linreg_design idata (r_N r) in
  let* y := lin_dot_mv_ret X (r_W r) in
  vec_destroy X ;;; ret y.

(** LinearRegression.hpp:47-56, PolynomialRegression.hpp:55-64: from [X] to the weights *)
Definition reg_solve (r : reg) (X odata : tensor) : M T unit :=
  let* X_T := lin_transpose_ret X in
  let* X_T_X := lin_dot_mm_ret X_T X in
  let* inv := lin_inverse_ret X_T_X in
  let* P := lin_dot_mm_ret inv X_T in
  lin_dot_mv (r_W r) P odata ;;;
  vec_destroy P ;;; vec_destroy inv ;;; vec_destroy X_T_X ;;; vec_destroy X_T.
(** LinearRegression.hpp:35-57 *)
Definition linreg_train (r : reg) (idata odata : tensor) : M T unit :=
  let* X := linreg_design idata (r_N r) in
  reg_solve r X odata ;;; vec_destroy X.

(** ** Polynomial regression *)
(** Polynomial.hpp:64-76 *)
Definition polyreg_sample (r : reg) (sample : T) : M T T :=
  let* w0 := tb_get (r_W r) 0 in
  let* p := mfold 1 (r_N r) (fun i acc =>
    let power := mul (snd acc) sample in
    let* w := tb_get (r_W r) i in ret (add (fst acc) (mul power w), power)) (w0, one) in
  ret (fst p).
(** Polynomial.hpp:80-96 *)
Definition polyreg_design (idata : tensor) (N : Z) : M T tensor :=
  let* X := mat_new (t_size idata) N in
  mfor 0 (t_size idata) (fun i =>
    let* sample := tb_get idata i in
    mat_set X i 0 one ;;;
    let* _ := mfold 1 N (fun j power =>
      let power := mul power sample in
      mat_set X i j power ;;; ret power) one in ret tt) ;;;
  ret X.
(** Polynomial.hpp:78-99 *)
Definition polyreg_feedforward (r : reg) (idata : tensor) : M T tensor :=
  let* X := polyreg_design idata (r_N r) in
  let* y := lin_dot_mv_ret X (r_W r) in
  vec_destroy X ;;; ret y.
(** PolynomialRegression.hpp:38-53: the same matrix, filled in another order *)
Definition polyreg_train_design (idata : tensor) (N : Z) : M T tensor :=
  let* X := mat_new (t_size idata) N in
  mfor 0 (t_size idata) (fun i =>
    let* sample := tb_get idata i in
    let* _ := mfold 0 N (fun j power =>
      mat_set X i j power ;;; ret (mul power sample)) one in ret tt) ;;;
  ret X.
(** PolynomialRegression.hpp:35-65 *)
Definition polyreg_train (r : reg) (idata odata : tensor) : M T unit :=
  let* X := polyreg_train_design idata (r_N r) in
  reg_solve r X odata ;;; vec_destroy X.
End Regression.
