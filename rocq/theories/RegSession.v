(** * Model of programs that use a regression: training, predictions, the checker
      (/repo/test/src/regression_test.cpp, Neuro/Checker/Core.hpp, Accuracy.hpp)

    A [Training] object of a regression and a [Checker] hold a reference to it and nothing else.
    [Checker::loss(X, Y, loss)] with a Vector or Matrix is the second overload (Core.hpp:55-64): the
    first one needs a template with type parameters only.  Vectors returned by the regression and not
    kept by the caller are released at the end of the full expression. *)
From Verif Require Import Mem Scalar Lique Linear Functions Checker Regression.
Open Scope Z_scope.

(** include/Trixy/Base.hpp:14-18: the two classes *)
Inductive rkind := RLinear | RPolynomial.
Section Session.
Context {T : Type} `{NT : Num T}.
(** Training/LinearRegression.hpp:35-57, Training/PolynomialRegression.hpp:35-65 *)
Definition reg_train (k : rkind) (r : reg) (x y : tensor) : M T unit :=
  match k with RLinear => linreg_train r x y | RPolynomial => polyreg_train r x y end.
(** Linear.hpp:76-93, Polynomial.hpp:78-104 ([operator()] calls [feedforward]) *)
Definition reg_feedforward (k : rkind) (r : reg) (x : tensor) : M T tensor :=
  match k with RLinear => linreg_feedforward r x | RPolynomial => polyreg_feedforward r x end.
(** Checker/Core.hpp:55-64 *)
Definition reg_loss (k : rkind) (r : reg) (l : loss) (sample target : tensor) : M T T :=
  let* p := reg_feedforward k r sample in
  let* error := loss_f l (t_size target) (t_data target) (t_data p) in
  vec_destroy p ;;; ret error.
(** regression_test.cpp:91 [check.guide.global(Y, reg(X), range)] *)
Definition reg_global (k : rkind) (r : reg) (x y : tensor) (range : T) : M T Z :=
  let* p := reg_feedforward k r x in
  let* count := guide_global y p range in
  vec_destroy p ;;; ret count.
(** regression_test.cpp:142 [check.guide.full(Y, reg(X), range)] *)
Definition reg_full (k : rkind) (r : reg) (x y : tensor) (range : T) : M T bool :=
  let* p := reg_feedforward k r x in
  let* ok := guide_full y p range in
  vec_destroy p ;;; ret ok.

(** The calls of a program on one regression object.  [COne] exists for linear, [CPoint] for polynomial
    regressions only. *)
Inductive rcall : Type :=
| CTrain (x y : tensor) | CPredict (x : tensor) | COne (sample : tensor) | CPoint (sample : T)
| CLoss (l : loss) (x y : tensor) | CGlobal (x y : tensor) (range : T) | CFull (x y : tensor) (range : T) | CReset (n : Z).
Inductive rout : Type := ODone | OVector (v : tensor) | ONumber (v : T) | OCount (c : Z) | OFlag (b : bool).
Definition do_rcall (k : rkind) (r : reg) (c : rcall) : M T (reg * rout) :=
  match c with
  | CTrain x y => reg_train k r x y ;;; ret (r, ODone)
  | CPredict x => let* v := reg_feedforward k r x in ret (r, OVector v)
  | COne s => match k with RLinear => let* v := linreg_sample r s in ret (r, ONumber v) | RPolynomial => ret (r, ODone) end
  | CPoint s => match k with RPolynomial => let* v := polyreg_sample r s in ret (r, ONumber v) | RLinear => ret (r, ODone) end
  | CLoss l x y => let* v := reg_loss k r l x y in ret (r, ONumber v)
  | CGlobal x y e => let* v := reg_global k r x y e in ret (r, OCount v)
  | CFull x y e => let* v := reg_full k r x y e in ret (r, OFlag v)
  | CReset n => let* r' := reg_reset r n in ret (r', ODone)
  end.
Fixpoint do_rcalls (k : rkind) (r : reg) (cs : list rcall) : M T (reg * list rout) :=
  match cs with
  | [] => ret (r, [])
  | c :: cs => let* a := do_rcall k r c in let* b := do_rcalls k (fst a) cs in ret (fst b, snd a :: snd b)
  end.
(** regression_test.cpp:101-123, 147-170: construct, use, destroy (the member [W] is the only resource) *)
Definition reg_program (k : rkind) (n : Z) (cs : list rcall) : M T (list rout) :=
  let* r := reg_new n in
  let* a := do_rcalls k r cs in
  vec_destroy (r_W (fst a)) ;;; ret (snd a).
End Session.
Arguments rcall : clear implicits.
Arguments rout : clear implicits.
