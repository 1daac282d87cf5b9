(** * Properties C94, C95: activations on floating-point numbers

    [T] is an IEEE format with at least 24 bits of precision and maximal exponent at least 64 (float and double are);
    the C math library [lib] is any one that meets the contract [libm_ok]. *)
From Coq Require Import ZArith QArith Reals Lra Lia.
From Flocq Require Import Core BinarySingleNaN.
From Verif Require Import Mem Scalar Functions FunctionSpec MemSpec MemLemmas LiqueProofs LinearProofs FunctionProofs Float FloatSpec FloatLemmas FloatAct FloatLib.
Local Open Scope R_scope.

Section Prop_.
Context {prec emax : Z} {Hp : Prec_gt_0 prec} {He : Prec_lt_emax prec emax} (P24 : (24 <= prec)%Z) (E64 : (64 <= emax)%Z).
Context (lib : libm prec emax) (LO : libm_ok lib).
Notation fl := (fl prec emax).
#[local] Instance NF : Num fl := Num_fl prec emax lib.

(** The documented range of each activation. *)
Definition in_range (a : scalar_activation) (x y : fl) : Prop :=
  match a with
  | Identity => y = x
  | ReLU | SoftPlus => 0 <= val y
  | Sigmoid => 0 <= val y <= 1
  | Tanh | SoftSign | ModTanh => -1 <= val y <= 1
  | Swish => Rmin 0 (B2R x) <= val y <= Rmax 0 (B2R x)
  | ELU | SELU => -2 <= val y
  | LReLU | ModRelu | GELU => True
  end.

Lemma scalar_f_spec (a : scalar_activation) (x : fl) : fin x ->
  num (scalar_f a x) /\ (a <> SELU -> a <> SoftPlus -> fin (scalar_f a x)) /\ in_range a x (scalar_f a x).
Proof.
  intros F. pose proof (fin_num x F) as N. destruct a; cbn [scalar_f in_range].
  - split; [exact N|]. split; [auto|reflexivity].
  - destruct (f_relu lib x N) as (A & B & C). auto.
  - destruct (f_elu P24 E64 lib LO x N) as (A & B & C). auto.
  - destruct (f_lrelu P24 E64 lib x N) as (A & B). auto.
  - destruct (f_selu P24 E64 lib LO x N) as (A & B). split; [exact A|]. split; [congruence|exact B].
  - pose proof (f_gelu P24 E64 lib LO x F). auto using fin_num.
  - pose proof (f_sigmoid lib LO x N) as W. split; [apply W|]. split; [intros _ _; now apply unit_fin|apply W].
  - pose proof (m_tanh_range lib LO x N) as W. split; [apply W|]. split; [intros _ _; now apply sym_fin|apply W].
  - pose proof (f_softsign lib x F) as W. split; [apply W|]. split; [intros _ _; now apply sym_fin|apply W].
  - destruct (f_softplus lib LO x N) as (A & B). split; [exact A|]. split; [congruence|exact B].
  - pose proof (f_swish lib LO x F) as W. split; [apply W|]. split; [intros _ _; now apply (minmax_fin x)|apply W].
  - pose proof (f_mod_relu P24 E64 lib x F). auto using fin_num.
  - pose proof (f_mod_tanh P24 E64 lib LO x N) as W. split; [apply W|]. split; [intros _ _; now apply sym_fin|apply W].
Qed.

(** ** C94 *)
(** On finite inputs no activation gives NaN, all but SELU and SoftPlus give finite values, and the values respect the
    range of the activation in spite of rounding. *)
Theorem C94_activation_finite_partial (a : scalar_activation) (result input : ptr) (n : Z) (m : mem fl) (x : Z -> fl) :
  room m result n -> holds m input n x -> operand_ok result n input -> (forall i, (0 <= i < n)%Z -> fin (x i)) ->
  exists (y : Z -> fl) m', act_f (Scalar a) result n input n m = Ok (tt, m') /\ sets result n y m m' /\
    forall i, (0 <= i < n)%Z -> num (y i) /\ (a <> SELU -> a <> SoftPlus -> fin (y i)) /\ in_range a (x i) (y i).
Proof.
  intros Hr Hx Ho F. destruct (wp_elim _ _ _ _ (wp_act_f (Scalar a) result n input m x ltac:(discriminate) Hr Hx Ho)) as ([] & m1 & E1 & S1).
  exists (fun i => scalar_f a (x i)), m1. split; [exact E1|]. split; [exact S1|]. intros i Hi. now apply scalar_f_spec, F.
Qed.
(** SoftPlus is +inf for every finite x at or above the largest exponent (128 for float, 1024 for double), where the true value is about x ... *)
Theorem C94_softplus_overflows_refuted (result input : ptr) (n : Z) (m : mem fl) (x : Z -> fl) :
  room m result n -> holds m input n x -> operand_ok result n input -> (forall i, (0 <= i < n)%Z -> fin (x i) /\ IZR emax <= B2R (x i)) ->
  exists (y : Z -> fl) m', act_f (Scalar SoftPlus) result n input n m = Ok (tt, m') /\ sets result n y m m' /\
    forall i, (0 <= i < n)%Z -> y i = B754_infinity false.
Proof.
  intros Hr Hx Ho F. destruct (wp_elim _ _ _ _ (wp_act_f (Scalar SoftPlus) result n input m x ltac:(discriminate) Hr Hx Ho)) as ([] & m1 & E1 & S1).
  exists (fun i => scalar_f SoftPlus (x i)), m1. split; [exact E1|]. split; [exact S1|]. intros i Hi. destruct (F i Hi). now apply softplus_over.
Qed.
(** ... and SELU for every finite x within 3% of the largest number. *)
Theorem C94_selu_overflows_refuted (result input : ptr) (n : Z) (m : mem fl) (x : Z -> fl) :
  room m result n -> holds m input n x -> operand_ok result n input -> (forall i, (0 <= i < n)%Z -> fin (x i) /\ 32 / 33 * big emax <= B2R (x i)) ->
  exists (y : Z -> fl) m', act_f (Scalar SELU) result n input n m = Ok (tt, m') /\ sets result n y m m' /\
    forall i, (0 <= i < n)%Z -> y i = B754_infinity false.
Proof.
  intros Hr Hx Ho F. destruct (wp_elim _ _ _ _ (wp_act_f (Scalar SELU) result n input m x ltac:(discriminate) Hr Hx Ho)) as ([] & m1 & E1 & S1).
  exists (fun i => scalar_f SELU (x i)), m1. split; [exact E1|]. split; [exact S1|]. intros i Hi. destruct (F i Hi). now apply selu_over.
Qed.

(** ** C95 *)
(** The largest input for which the derivative is shown to be finite; every derivative but those of Swish and GELU is finite everywhere. *)
Definition df_domain (a : scalar_activation) (x : fl) : Prop :=
  match a with
  | Swish => exists k : Z, (0 <= k)%Z /\ (4 * k + 4 <= emax)%Z /\ - IZR k <= B2R x <= bpow radix2 (emax - 2)
  | GELU => exists k : Z, (0 <= k)%Z /\ (3 * k + 4 <= emax)%Z /\ Rabs (B2R x) <= bpow radix2 k
  | _ => True
  end.
Definition df_range (a : scalar_activation) (y : fl) : Prop :=
  match a with Swish | GELU => True | SELU => 0 <= B2R y <= 2 | _ => 0 <= B2R y <= 1 end.
Lemma scalar_df_spec (a : scalar_activation) (x : fl) : fin x -> df_domain a x -> fin (scalar_df a x) /\ df_range a (scalar_df a x).
Proof.
  intros F D. pose proof (fin_num x F) as N. destruct (lit_001 P24 E64) as [F001 L001]. pose proof (fin_one (prec := prec) (emax := emax)) as F1. pose proof (val_one (prec := prec) (emax := emax)) as V1.
  assert (U : forall y : fl, within y 0 1 -> fin y /\ 0 <= B2R y <= 1). { intros y W. pose proof (unit_fin y W) as Fy. split; [exact Fy|]. now apply within_B2R. }
  destruct a; cbn [scalar_df df_range df_domain] in *.
  - cbn [identity_derived one NF Num_fl]. unfold identity_derived. cbn [one NF Num_fl]. rewrite V1. split; [exact F1|lra].
  - unfold relu_derived. destruct (gt0 x); cbn [one zero NF Num_fl]; [rewrite V1; split; [exact F1|lra]|]. split; [reflexivity|cbn; lra].
  - now apply U, d_elu.
  - unfold lrelu_derived. destruct (gt0 x); cbn [one lit NF Num_fl]; [rewrite V1; split; [exact F1|lra]|]. split; [exact F001|lra].
  - pose proof (d_selu P24 E64 lib LO x N) as W. assert (Fy : fin (selu_derived x)). { apply (within_fin _ _ _ W); pose proof (B64 E64); assert (4 <= bpow radix2 64) by (change 4 with (bpow radix2 2); apply bpow_le; lia); lra. }
    split; [exact Fy|]. now apply within_B2R.
  - destruct D as (k & K0 & K & H). split; [now apply (d_gelu_fin P24 E64 lib LO x k)|exact I].
  - apply U. apply (within_weaken _ _ _ _ _ (d_sigmoid P24 E64 lib LO x N)); lra.
  - now apply U, d_tanh.
  - now apply U, d_softsign.
  - apply U. change (softplus_derived x) with (sigmoid x). now apply f_sigmoid.
  - destruct D as (k & K0 & K & H). split; [now apply (d_swish_fin P24 E64 lib LO x k)|exact I].
  - unfold mod_relu_derived. destruct (ltb x zero || ltb one x)%bool; cbn [one lit NF Num_fl]; [split; [exact F001|lra]|]. rewrite V1; split; [exact F1|lra].
  - now apply U, d_mod_tanh.
Qed.
Theorem C95_derivative_finite_partial (a : scalar_activation) (result input : ptr) (n : Z) (m : mem fl) (x : Z -> fl) :
  room m result n -> holds m input n x -> operand_ok result n input -> (forall i, (0 <= i < n)%Z -> fin (x i) /\ df_domain a (x i)) ->
  exists (y : Z -> fl) m', act_df (Scalar a) result n input n m = Ok (tt, m') /\ sets result n y m m' /\
    forall i, (0 <= i < n)%Z -> fin (y i) /\ df_range a (y i).
Proof.
  intros Hr Hx Ho F. destruct (wp_elim _ _ _ _ (wp_act_df (Scalar a) result n input n m x Hr Hx Ho)) as ([] & m1 & E1 & S1).
  exists (fun i => scalar_df a (x i)), m1. split; [exact E1|]. split; [exact S1|]. intros i Hi. destruct (F i Hi). now apply scalar_df_spec.
Qed.
(** Swish: NaN for every finite x at or below minus the largest exponent (the true derivative there is almost 0) ... *)
Theorem C95_swish_nan_refuted (result input : ptr) (n : Z) (m : mem fl) (x : Z -> fl) :
  room m result n -> holds m input n x -> operand_ok result n input -> (forall i, (0 <= i < n)%Z -> fin (x i) /\ B2R (x i) <= - IZR emax) ->
  exists (y : Z -> fl) m', act_df (Scalar Swish) result n input n m = Ok (tt, m') /\ sets result n y m m' /\
    forall i, (0 <= i < n)%Z -> y i = B754_nan.
Proof.
  intros Hr Hx Ho F. destruct (wp_elim _ _ _ _ (wp_act_df (Scalar Swish) result n input n m x Hr Hx Ho)) as ([] & m1 & E1 & S1).
  exists (fun i => scalar_df Swish (x i)), m1. split; [exact E1|]. split; [exact S1|]. intros i Hi. destruct (F i Hi). now apply swish_d_nan.
Qed.
(** ... GELU: NaN whenever x * x overflows (the true derivative is 0 or 1). *)
Theorem C95_gelu_nan_refuted (result input : ptr) (n : Z) (m : mem fl) (x : Z -> fl) :
  room m result n -> holds m input n x -> operand_ok result n input -> (forall i, (0 <= i < n)%Z -> fin (x i) /\ big emax <= B2R (x i) * B2R (x i)) ->
  exists (y : Z -> fl) m', act_df (Scalar GELU) result n input n m = Ok (tt, m') /\ sets result n y m m' /\
    forall i, (0 <= i < n)%Z -> y i = B754_nan.
Proof.
  intros Hr Hx Ho F. destruct (wp_elim _ _ _ _ (wp_act_df (Scalar GELU) result n input n m x Hr Hx Ho)) as ([] & m1 & E1 & S1).
  exists (fun i => scalar_df GELU (x i)), m1. split; [exact E1|]. split; [exact S1|]. intros i Hi. destruct (F i Hi). now apply gelu_d_nan.
Qed.
End Prop_.

(** ** The hypotheses can be met: double precision, a correctly rounded library, inputs 1 and -2^12 and 2^1020 *)
Module Examples.
#[local] Instance Hp53 : Prec_gt_0 53 := eq_refl.
#[local] Instance He53 : Prec_lt_emax 53 1024 := eq_refl.
Notation double := (fl 53 1024).
Definition lib := cr_lib (prec := 53) (emax := 1024).
Lemma lib_ok : libm_ok lib. Proof. now apply cr_lib_ok. Qed.
Definition a1 : double := fl_of 1.
Definition a2 : double := fl_of (- bpow radix2 12).
Definition a3 : double := fl_of (bpow radix2 1020).
Lemma a1_ok : fin a1 /\ B2R a1 = 1.
Proof. apply fl_of_exact; [apply fmt_1|]. rewrite Rabs_R1. apply (big_gt_1 (prec := 53)). Qed.
Lemma a2_ok : fin a2 /\ B2R a2 = - bpow radix2 12.
Proof. apply fl_of_exact; [apply fmt_opp, fmt_bpow; lia|]. rewrite Rabs_Ropp, Rabs_pos_eq by apply bpow_ge_0. apply bpow_lt. lia. Qed.
Lemma a3_ok : fin a3 /\ B2R a3 = bpow radix2 1020.
Proof. apply fl_of_exact; [apply fmt_bpow; lia|]. rewrite Rabs_pos_eq by apply bpow_ge_0. apply bpow_lt. lia. Qed.
(** three inputs in block 0, room for three results in block 1 *)
Definition m0 (a b c : double) : mem double := [Some [Some a; Some b; Some c]; Some [None; None; None]]%list.
Definition xs (a b c : double) (i : Z) : double := match i with 0%Z => a | 1%Z => b | _ => c end.
Lemma cases3 (P : Z -> Prop) : P 0%Z -> P 1%Z -> P 2%Z -> forall i, (0 <= i < 3)%Z -> P i.
Proof. intros A B C i Hi. assert (H : i = 0%Z \/ i = 1%Z \/ i = 2%Z) by lia. destruct H as [->|[->| ->]]; assumption. Qed.
Lemma buffers a b c : room (m0 a b c) (Ptr 1 0) 3 /\ holds (m0 a b c) (Ptr 0 0) 3 (xs a b c) /\ operand_ok (Ptr 1 0) 3 (Ptr 0 0).
Proof.
  split; [|split].
  - refine (cases3 (fun i => elem (m0 a b c) (Ptr 1 0) i <> None) _ _ _); discriminate.
  - refine (cases3 (fun i => elem (m0 a b c) (Ptr 0 0) i = Some (Some (xs a b c i))) _ _ _); reflexivity.
  - right. unfold disjoint, inside. intros b' i [-> _] [H _]. discriminate H.
Qed.
Example C94_finite : exists y m', act_f (NT := Num_fl 53 1024 lib) (Scalar Sigmoid) (Ptr 1 0) 3 (Ptr 0 0) 3 (m0 a1 a2 a3) = Ok (tt, m') /\
  forall i, (0 <= i < 3)%Z -> elem m' (Ptr 1 0) i = Some (Some (y i)) /\ fin (y i) /\ 0 <= val (y i) <= 1.
Proof.
  destruct (buffers a1 a2 a3) as (R & H & O).
  destruct (C94_activation_finite_partial (prec := 53) (emax := 1024) ltac:(lia) ltac:(lia) lib lib_ok Sigmoid _ _ 3 _ _ R H O) as (y & m' & E & S & Y).
  { apply (cases3 (fun i => fin (xs a1 a2 a3 i))); [apply a1_ok|apply a2_ok|apply a3_ok]. }
  exists y, m'. split; [exact E|]. intros i Hi. destruct (Y i Hi) as (_ & A & B). split; [now apply S|]. split; [now apply A|exact B].
Qed.
Example C94_softplus_overflows : exists y m', act_f (NT := Num_fl 53 1024 lib) (Scalar SoftPlus) (Ptr 1 0) 3 (Ptr 0 0) 3 (m0 a3 a3 a3) = Ok (tt, m') /\
  forall i, (0 <= i < 3)%Z -> elem m' (Ptr 1 0) i = Some (Some (y i)) /\ y i = B754_infinity false.
Proof.
  destruct (buffers a3 a3 a3) as (R & H & O).
  destruct (C94_softplus_overflows_refuted (prec := 53) (emax := 1024) lib lib_ok _ _ 3 _ _ R H O) as (y & m' & E & S & Y).
  { assert (Q : fin a3 /\ IZR 1024 <= B2R a3). { destruct a3_ok as [F V]. split; [exact F|]. rewrite V. change (IZR 1024) with (bpow radix2 10). apply bpow_le. lia. }
    apply (cases3 (fun i => fin (xs a3 a3 a3 i) /\ IZR 1024 <= B2R (xs a3 a3 a3 i))); exact Q. }
  exists y, m'. split; [exact E|]. intros i Hi. split; [now apply S|now apply Y].
Qed.
Example C95_swish_nan : exists y m', act_df (NT := Num_fl 53 1024 lib) (Scalar Swish) (Ptr 1 0) 3 (Ptr 0 0) 3 (m0 a2 a2 a2) = Ok (tt, m') /\
  forall i, (0 <= i < 3)%Z -> elem m' (Ptr 1 0) i = Some (Some (y i)) /\ y i = B754_nan.
Proof.
  destruct (buffers a2 a2 a2) as (R & H & O).
  destruct (C95_swish_nan_refuted (prec := 53) (emax := 1024) ltac:(lia) lib lib_ok _ _ 3 _ _ R H O) as (y & m' & E & S & Y).
  { assert (Q : fin a2 /\ B2R a2 <= - IZR 1024). { destruct a2_ok as [F V]. split; [exact F|]. rewrite V. change (IZR 1024) with (bpow radix2 10). apply Ropp_le_contravar, bpow_le. lia. }
    apply (cases3 (fun i => fin (xs a2 a2 a2 i) /\ B2R (xs a2 a2 a2 i) <= - IZR 1024)); exact Q. }
  exists y, m'. split; [exact E|]. intros i Hi. split; [now apply S|now apply Y].
Qed.
Example C95_gelu_nan : fin a3 /\ big 1024 <= B2R a3 * B2R a3.
Proof. destruct a3_ok as [F V]. split; [exact F|]. rewrite V, <- bpow_plus. apply bpow_le. lia. Qed.
Example C95_domain : df_domain Swish a1 /\ df_domain GELU a2.
Proof.
  destruct a1_ok as [_ V1]. destruct a2_ok as [_ V2]. cbn [df_domain]. split.
  - exists 1%Z. rewrite V1. split; [lia|]. split; [lia|]. split; [lra|]. change 1 with (bpow radix2 0). apply bpow_le. lia.
  - exists 12%Z. split; [lia|]. split; [lia|]. rewrite V2, Rabs_Ropp, Rabs_pos_eq by apply bpow_ge_0. lra.
Qed.
End Examples.
Print Assumptions C94_activation_finite_partial.
Print Assumptions C94_softplus_overflows_refuted.
Print Assumptions C94_selu_overflows_refuted.
Print Assumptions C95_derivative_finite_partial.
Print Assumptions C95_swish_nan_refuted.
Print Assumptions C95_gelu_nan_refuted.
