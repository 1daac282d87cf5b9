(** * Scalars

    The element type ("Precision") of the library is a template parameter.  The model uses a
    class of operations *without laws*; theorems over all [Num T] therefore do not rely on
    associativity and the like and also speak about machine floats (with one scalar type:
    promotions of float expressions to double in the C++ text are not modelled). *)
From Coq Require Import ZArith QArith Reals.
From Verif Require Import Mem.

Class Num (T : Type) := {
  zero : T; one : T;
  add : T -> T -> T; sub : T -> T -> T; mul : T -> T -> T; div : T -> T -> T;
  opp : T -> T;
  ltb : T -> T -> bool;             (* operator<  *)
  eqb : T -> T -> bool;             (* operator== *)
  nabs : T -> T;                    (* std::fabs  *)
  nsqrt : T -> T; nexp : T -> T; nexpm1 : T -> T; nlog : T -> T; nlog1p : T -> T;
  ntanh : T -> T; ncosh : T -> T;
  npow : T -> T -> T;               (* std::pow *)
  lit : Q -> T;                     (* decimal literals of the source *)
  ofZ : Z -> T                      (* conversion from an integer *)
}.

(** Sum of [f 0 .. f (n-1)] in index order, starting from [zero]. *)
Fixpoint gsum {T} `{Num T} (n : nat) (f : Z -> T) : T :=
  match n with
  | O => zero
  | S n' => add (gsum n' f) (f (Z.of_nat n'))
  end.
Definition zsum {T} `{Num T} (n : Z) (f : Z -> T) : T := gsum (Z.to_nat n) f.

(** Fold with an arbitrary start value: [acc + f 0 + f 1 + ...]. *)
Fixpoint gsum_from {T} `{Num T} (a : T) (n : nat) (f : Z -> T) : T :=
  match n with
  | O => a
  | S n' => add (gsum_from a n' f) (f (Z.of_nat n'))
  end.
Definition zsum_from {T} `{Num T} (a : T) (n : Z) (f : Z -> T) : T :=
  gsum_from a (Z.to_nat n) f.

(** Instance on the reals: exact arithmetic. *)
Definition Rltb (x y : R) : bool := if Rlt_dec x y then true else false.
Definition Reqb (x y : R) : bool := if Req_EM_T x y then true else false.
Definition Rpower_c (x y : R) : R := Rpower x y.
#[global] Instance Num_R : Num R := {
  zero := 0%R; one := 1%R;
  add := Rplus; sub := Rminus; mul := Rmult; div := Rdiv; opp := Ropp;
  ltb := Rltb; eqb := Reqb; nabs := Rabs;
  nsqrt := sqrt; nexp := exp; nexpm1 := (fun x => exp x - 1)%R;
  nlog := ln; nlog1p := (fun x => ln (1 + x))%R;
  ntanh := tanh; ncosh := cosh; npow := Rpower_c;
  lit := Q2R; ofZ := IZR
}.

(** The reals with an arbitrary result [junk x] for [x / 0]: a theorem that holds for every
    [junk] does not depend on any division by zero. *)
Definition Num_Rj (junk : R -> R) : Num R := {|
  zero := 0%R; one := 1%R;
  add := Rplus; sub := Rminus; mul := Rmult;
  div := (fun x y => if Req_EM_T y 0 then junk x else x / y)%R; opp := Ropp;
  ltb := Rltb; eqb := Reqb; nabs := Rabs;
  nsqrt := sqrt; nexp := exp; nexpm1 := (fun x => exp x - 1)%R;
  nlog := ln; nlog1p := (fun x => ln (1 + x))%R;
  ntanh := tanh; ncosh := cosh; npow := Rpower_c;
  lit := Q2R; ofZ := IZR |}.

(** Executable instance on the rationals, used only for concrete runs of the model
    (tests).  Transcendental functions are not available there (they return 0). *)
Definition Qlt_b (x y : Q) : bool := Qle_bool x y && negb (Qeq_bool x y).
#[global] Instance Num_Q : Num Q := {
  zero := 0%Q; one := 1%Q;
  add := (fun x y => Qred (x + y)); sub := (fun x y => Qred (x - y));
  mul := (fun x y => Qred (x * y)); div := (fun x y => Qred (x / y));
  opp := (fun x => Qred (- x));
  ltb := Qlt_b; eqb := Qeq_bool; nabs := (fun x => if Qle_bool 0 x then x else Qred (- x));
  nsqrt := (fun _ => 0%Q); nexp := (fun _ => 0%Q); nexpm1 := (fun _ => 0%Q);
  nlog := (fun _ => 0%Q); nlog1p := (fun _ => 0%Q);
  ntanh := (fun _ => 0%Q); ncosh := (fun _ => 0%Q); npow := (fun _ _ => 0%Q);
  lit := (fun q => q); ofZ := inject_Z
}.

(** Executable instance on the integers (tests of memory behaviour). *)
#[global] Instance Num_Z : Num Z := {
  zero := 0; one := 1; add := Z.add; sub := Z.sub; mul := Z.mul; div := Z.div;
  opp := Z.opp; ltb := Z.ltb; eqb := Z.eqb; nabs := Z.abs;
  nsqrt := Z.sqrt; nexp := (fun _ => 0); nexpm1 := (fun _ => 0);
  nlog := (fun _ => 0); nlog1p := (fun _ => 0);
  ntanh := (fun _ => 0); ncosh := (fun _ => 0); npow := Z.pow;
  lit := (fun q => Qnum q / Zpos (Qden q)); ofZ := (fun z => z)
}.
