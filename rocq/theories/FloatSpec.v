(** * Vocabulary for statements about floating-point results *)
From Coq Require Import ZArith Reals.
From Flocq Require Import Core BinarySingleNaN.
From Verif Require Import Scalar Float.
Local Open Scope R_scope.

Section Spec.
Context {prec emax : Z} {Hp : Prec_gt_0 prec} {He : Prec_lt_emax prec emax}.
Notation fl := (fl prec emax).
Implicit Types x y : fl.

(** [x] is a number: not NaN (it may be an infinity) *)
Definition num x : Prop := is_nan x = false.
(** [x] is a finite number, of value [B2R x] *)
Definition fin x : Prop := is_finite x = true.
(** the real value of a number; an infinity has the value plus or minus 2^emax, the smallest magnitude too
    large for the format (so [x <= y] in C++ is [val x <= val y] for all numbers, lemma [val_leb]) *)
Definition big : R := bpow radix2 emax.
Definition val x : R :=
  match x with B754_infinity false => big | B754_infinity true => - big | _ => B2R x end.
(** [x] is a number between the reals [a] and [b] *)
Definition within x (a b : R) : Prop := num x /\ a <= val x <= b.
(** unit roundoff and half the smallest positive number *)
Definition uro : R := bpow radix2 (- prec).
Definition eta : R := bpow radix2 (3 - emax - prec - 1).

(** The classical bound on the rounding error of a sum of products: [K] roundings in sequence, [M] products, terms of total
    magnitude [A]. *)
Definition roundings (K M : Z) (A : R) : R := ((1 + uro) ^ Z.to_nat K - 1) * A + IZR M * eta * (1 + uro) ^ Z.to_nat K.
(** [r] was computed from operands that should satisfy [ok] (be finite), exact result [e], magnitude of the terms [A]: a finite
    result means finite operands and a small error; finite operands not too large give a finite result. *)
Definition accurate (r : fl) (K M : Z) (e A : R) (ok : Prop) : Prop :=
  (fin r -> ok /\ Rabs (B2R r - e) <= roundings K M A) /\
  (ok -> A + roundings K M A < big -> fin r).

(** What theorems assume of the C math library: special cases of IEEE 754 / C Annex F, and that results respect the
    bounds of the real functions.  A correctly rounded library has all of this (FloatLib.v), and so has any library that rounds
    faithfully. *)
Record libm_ok (lib : libm prec emax) : Prop := {
  m_exp_num : forall x, num x -> num (l_exp lib x);
  m_exp_pos : forall x, num x -> 0 <= val (l_exp lib x);
  m_exp_le_1 : forall x, num x -> val x <= 0 -> val (l_exp lib x) <= 1;
  m_exp_0 : forall x, fin x -> B2R x = 0 -> fin (l_exp lib x) /\ B2R (l_exp lib x) = 1;
  m_exp_overflow : forall x, num x -> IZR emax <= val x -> l_exp lib x = B754_infinity false;
  m_exp_growth : forall x (k : Z), num x -> (0 <= k)%Z -> val x <= IZR k -> val (l_exp lib x) <= bpow radix2 (2 * k);
  m_expm1_neg : forall x, num x -> val x <= 0 -> within (l_expm1 lib x) (-1) 0;
  m_log_fin : forall x, fin x -> 0 < B2R x -> fin (l_log lib x);
  m_log_inf : l_log lib (B754_infinity false) = B754_infinity false;
  m_log_zero : forall s, l_log lib (B754_zero s) = B754_infinity true;
  m_log_le_1 : forall x, fin x -> 0 < B2R x <= 1 -> B2R (l_log lib x) <= 0;
  m_log_ge_1 : forall x, fin x -> 1 <= B2R x -> 0 <= B2R (l_log lib x);
  m_log1p_fin : forall x, fin x -> -1 < B2R x -> fin (l_log1p lib x);
  m_log1p_m1 : forall x, fin x -> B2R x = -1 -> l_log1p lib x = B754_infinity true;
  m_log1p_neg : forall x, fin x -> -1 < B2R x <= 0 -> B2R (l_log1p lib x) <= 0;
  m_tanh_range : forall x, num x -> within (l_tanh lib x) (-1) 1;
  m_cosh_ge_1 : forall x, num x -> num (l_cosh lib x) /\ 1 <= val (l_cosh lib x);
  m_cosh_inf : forall s, l_cosh lib (B754_infinity s) = B754_infinity false;
  m_log_bound : forall x (k : Z), fin x -> (0 <= k <= 2 ^ prec)%Z -> bpow radix2 (- k) <= B2R x <= bpow radix2 k -> Rabs (B2R (l_log lib x)) <= IZR k;
  m_log1p_bound : forall x (k : Z), fin x -> (0 <= k <= 2 ^ prec)%Z -> bpow radix2 (- k) <= 1 + B2R x <= bpow radix2 k -> Rabs (B2R (l_log1p lib x)) <= IZR k;
  m_cosh_growth : forall x (k : Z), fin x -> (0 <= k)%Z -> Rabs (B2R x) <= IZR k -> val (l_cosh lib x) <= bpow radix2 (2 * k);
  m_cosh_overflow : forall x, num x -> IZR emax + 1 <= Rabs (val x) -> l_cosh lib x = B754_infinity false
}.
End Spec.
Arguments big emax : clear implicits.
Arguments roundings prec emax : clear implicits.
Arguments uro prec : clear implicits.
Arguments eta prec emax : clear implicits.
