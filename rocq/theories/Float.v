(** * IEEE-754 arithmetic as an instance of [Num]

    Models the built-in C++ floating types (float: prec = 24, emax = 128; double: prec = 53, emax = 1024),
    which are the [Precision] template argument in all of /repo/include/Trixy: round to nearest, ties to even,
    gradual underflow, signed zeros, infinities, one NaN (payloads are not modelled), as formalised by
    Flocq's [binary_float].  Addition, subtraction, multiplication, division and square root are the exact
    IEEE operations; [exp], [log], ... come from the C++ library, whose accuracy the standard does not fix:
    they are a parameter [libm] and theorems state what they need of it.  Not modelled: promotion of single
    [float] sub-expressions to [double] (FLT_EVAL_METHOD 0 and one scalar type), -ffast-math. *)
From Coq Require Import ZArith QArith.
From Flocq Require Import Core BinarySingleNaN.
From Verif Require Import Scalar.

Section Float.
Context (prec emax : Z) {Hp : Prec_gt_0 prec} {He : Prec_lt_emax prec emax}.
Definition fl : Type := binary_float prec emax.

(** <cmath>: std::exp, expm1, log, log1p, tanh, cosh, pow *)
Record libm := {
  l_exp : fl -> fl; l_expm1 : fl -> fl; l_log : fl -> fl; l_log1p : fl -> fl;
  l_tanh : fl -> fl; l_cosh : fl -> fl; l_pow : fl -> fl -> fl }.

(** conversion from an integer: correctly rounded, e.g. Random/Core.hpp:127 [floating_type(generator_())] *)
Definition fl_ofZ (z : Z) : fl := binary_normalize prec emax Hp He mode_NE z 0 false.
(** a decimal literal: numerator over denominator.  Both are exact in float and double for every literal of
    the library, so this is the correctly rounded literal. *)
Definition fl_lit (q : Q) : fl := Bdiv mode_NE (fl_ofZ (Qnum q)) (fl_ofZ (Zpos (Qden q))).

Definition Num_fl (lib : libm) : Num fl := {|
  zero := B754_zero false; one := Bone;
  add := Bplus mode_NE; sub := Bminus mode_NE; mul := Bmult mode_NE; div := Bdiv mode_NE; opp := Bopp;
  ltb := Bltb; eqb := Beqb; nabs := Babs; nsqrt := Bsqrt mode_NE;
  nexp := l_exp lib; nexpm1 := l_expm1 lib; nlog := l_log lib; nlog1p := l_log1p lib;
  ntanh := l_tanh lib; ncosh := l_cosh lib; npow := l_pow lib;
  lit := fl_lit; ofZ := fl_ofZ |}.
End Float.
Arguments l_exp {prec emax}. Arguments l_expm1 {prec emax}. Arguments l_log {prec emax}. Arguments l_log1p {prec emax}.
Arguments l_tanh {prec emax}. Arguments l_cosh {prec emax}. Arguments l_pow {prec emax}.
