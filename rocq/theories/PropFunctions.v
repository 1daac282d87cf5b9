(** * Properties C33-C42: activations and losses *)
From Coq Require Import QArith Reals Lra.
From Coquelicot Require Import Coquelicot.
From Verif Require Import Mem Scalar Functions FunctionSpec MemSpec MemLemmas LiqueProofs LinearProofs FunctionProofs Lique RSum RealSpec ActivationProofs LossProofs.
Local Open Scope R_scope.

(** ** C33 *)
(** The activations are the textbook functions ... *)
Theorem C33_activation_is_textbook (a : scalar_activation) (x : R) : scalar_f a x = std_act a x.
Proof. apply act_std. Qed.
(** ... [df] is the derivative of [f] away from the corners ... *)
Theorem C33_activation_derivative (a : scalar_activation) (x : R) :
  a <> GELU -> ~ corner a x -> derivable_pt_lim (scalar_f a) x (scalar_df a x).
Proof.
  intros Ha Hc. apply is_derive_Reals.
  destruct a; cbn [scalar_f scalar_df corner] in *; try congruence;
    auto using d_identity, d_relu, d_elu, d_lrelu, d_selu, d_sigmoid, d_tanh, d_softsign, d_softplus, d_swish, d_mod_tanh.
  apply d_mod_relu; tauto.
Qed.
(** ... and at the corners there is no derivative, so this is every point of differentiability. *)
Theorem C33_corner_not_differentiable (a : scalar_activation) (x d : R) :
  corner a x -> ~ derivable_pt_lim (scalar_f a) x d.
Proof.
  intros Hc. destruct a; cbn [scalar_f corner] in *; try tauto; subst;
    auto using k_relu, k_elu, k_lrelu, k_selu, k_mod_tanh.
  destruct Hc as [->| ->]; auto using k_mod_relu0, k_mod_relu1.
Qed.
Theorem C33_derivative_wherever_differentiable (a : scalar_activation) (x d : R) :
  a <> GELU -> derivable_pt_lim (scalar_f a) x d -> scalar_df a x = d.
Proof.
  intros Ha Hd. eapply uniqueness_limite; [|exact Hd]. apply C33_activation_derivative; auto.
  intros Hc. eapply C33_corner_not_differentiable; eauto.
Qed.

(** ** C34 *)
(** the derivative gelu really has *)
Theorem C34_gelu_derivative_formula_partial (x : R) :
  derivable_pt_lim (scalar_f GELU) x
    (let y := 0.797885 * x + 0.0356774 * x ^ 3 in
     1 / 2 * (tanh y + 1) + x / 2 * (1 / cosh y) ^ 2 * (0.797885 + 3 * 0.0356774 * x ^ 2)).
Proof.
  apply is_derive_Reals. evar_last; [apply d_gelu|]. unfold gelu_true_derivative. cbv zeta. unfold Q2R. cbn [Qnum Qden].
  replace (797885 / 1000000 * x + 356774 / 10000000 * x ^ 3) with (797885 * / 1000000 * x + 356774 * / 10000000 * x ^ 3) by lra.
  pose proof (cosh_pos (797885 * / 1000000 * x + 356774 * / 10000000 * x ^ 3)). field. lra.
Qed.
Lemma gelu_df_pm1 (x : R) : x ^ 2 = 1 -> Rabs (gelu_true_derivative x - gelu_derived x) <= / 10 ^ 6.
Proof.
  intros Hx. unfold gelu_true_derivative, gelu_derived, half. num. cbv zeta.
  assert (Hx2 : x * x = 1) by lra. assert (E3 : x * x * x = x) by (rewrite Hx2; lra).
  replace (x ^ 3) with x by (cbn [pow]; rewrite Rmult_1_r, Hx2; lra). rewrite E3, Hx.
  replace (797885 / 1000000 * x + 356774 / 10000000 * x) with (797885 * / 1000000 * x + 356774 * / 10000000 * x) by lra.
  set (y := 797885 * / 1000000 * x + 356774 * / 10000000 * x).
  pose proof (cosh_ge1 y) as Hc. set (s := 1 / cosh y).
  assert (Hs : 0 < s <= 1). { unfold s. split; [apply Rdiv_lt_0_compat; lra|apply Rle_div_l; lra]. }
  assert (Hs2 : 0 <= s * s <= 1) by nra.
  replace (_ - _) with (s * s * x * (5 * / 10000000)) by (field).
  assert (-1 <= x <= 1) by nra. apply Rabs_le. split; nra.
Qed.
Theorem C34_gelu_derivative_at_minus1_0_1_partial (x d : R) :
  x = -1 \/ x = 0 \/ x = 1 -> derivable_pt_lim (scalar_f GELU) x d -> Rabs (d - scalar_df GELU x) <= / 10 ^ 6.
Proof.
  intros Hx Hd. assert (d = gelu_true_derivative x) as ->. { eapply uniqueness_limite; [exact Hd|]. apply is_derive_Reals, d_gelu. }
  destruct Hx as [->|[->| ->]]; [apply gelu_df_pm1; lra| |apply gelu_df_pm1; lra].
  unfold gelu_true_derivative. cbn [scalar_df]. unfold gelu_derived, half. num. cbv zeta.
  replace (797885 / 1000000 * 0 + 356774 / 10000000 * 0 ^ 3) with 0 by lra.
  replace (797885 * / 1000000 * (0 * 0 * 0) + 356774 * / 10000000 * 0) with 0 by lra.
  rewrite tanh_0', cosh_0. replace (_ - _) with 0 by field. rewrite Rabs_R0. lra.
Qed.
Lemma tanh_of_exp y : tanh y = 1 - 2 / (exp (2 * y) + 1). Proof. apply tanh_eq. Qed.
Lemma sech2_of_exp y : 1 / cosh y * (1 / cosh y) = 4 * exp (2 * y) / (exp (2 * y) + 1) ^ 2.
Proof.
  rewrite cosh_eq. replace (2 * y) with (y + y) by lra. rewrite exp_plus. pose proof (expp y). field. repeat split; nra.
Qed.
Lemma exp_ge2 (k : nat) y : INR k <= y -> 2 ^ k <= exp y.
Proof.
  intros H. apply Rle_trans with (exp (INR k)).
  2:{ destruct H as [H|H]; [left; now apply exp_increasing|now rewrite H; right]. }
  clear. induction k; [cbn; rewrite exp_0; lra|]. rewrite S_INR, exp_plus. cbn [pow].
  pose proof (exp_ineq1 1 ltac:(lra)). pose proof (expp (INR k)). nra.
Qed.
Lemma exp_le3 (k : nat) y : y <= INR k -> exp y <= 3 ^ k.
Proof.
  intros H. apply Rle_trans with (exp (INR k)).
  { destruct H as [H|H]; [left; now apply exp_increasing|now rewrite H; right]. }
  clear. induction k; [cbn; rewrite exp_0; lra|]. rewrite S_INR, exp_plus. cbn [pow].
  pose proof exp_le_3. pose proof (expp (INR k)). pose proof (expp 1). nra.
Qed.
(** at [x = 2] the value [df] returns is off by more than 0.04 *)
Theorem C34_gelu_derivative_refuted (d : R) :
  derivable_pt_lim (scalar_f GELU) 2 d -> d - scalar_df GELU 2 > 0.04.
Proof.
  intros Hd. assert (d = gelu_true_derivative 2) as ->. { eapply uniqueness_limite; [exact Hd|]. apply is_derive_Reals, d_gelu. }
  clear Hd. unfold gelu_true_derivative. cbn [scalar_df]. unfold gelu_derived, half. num. cbv zeta.
  set (y := 797885 / 1000000 * 2 + 356774 / 10000000 * 2 ^ 3).
  set (z := 797885 * / 1000000 * (2 * 2 * 2) + 356774 * / 10000000 * 2).
  rewrite !Rmult_assoc.
  replace ((535161 * (/ 10000000 * (2 * (2 * 2))) + 398942 * (/ 1000000 * 2)) * (1 / cosh z * (1 / cosh z))) with
    (1.2260128 * (1 / cosh z * (1 / cosh z))) by (unfold Q2R; cbn; lra).
  rewrite <- (Rmult_assoc (1 / cosh y) (1 / cosh y)). rewrite !sech2_of_exp, !tanh_of_exp.
  assert (Hs : 1 <= exp (2 * y) <= 81).
  { split; [replace 1 with (2 ^ 0) by lra; apply exp_ge2; unfold y; cbn; lra|].
    replace 81 with (3 ^ 4) by lra. apply exp_le3. unfold y; cbn; lra. }
  assert (Hu : 4096 <= exp (2 * z)). { replace 4096 with (2 ^ 12) by lra. apply exp_ge2. unfold z. cbn. lra. }
  set (s := exp (2 * y)) in *. set (u := exp (2 * z)) in *.
  assert (A : 1 + 0.045 <= 1 / 2 * (1 - 2 / (s + 1) + 1) + 1 / 2 * (2 * (4 * s / (s + 1) ^ 2 * (797885 / 1000000 + 3 * (356774 / 10000000 * 2 ^ 2))))).
  { apply Rminus_le_0.
    replace (_ - _) with ((3.9040552 * s - 1 - 0.045 * (s + 1) ^ 2) / (s + 1) ^ 2) by (unfold Q2R; cbn [Qnum Qden]; field; lra).
    apply Rle_mult_inv_pos; [|apply pow_lt; lra]. unfold Q2R; cbn. nra. }
  assert (B : 4 * u / (u + 1) ^ 2 <= 0.001).
  { apply Rle_div_l; [apply pow_lt; lra|]. unfold Q2R; cbn. nra. }
  assert (C : 0 < 2 / (u + 1)) by (apply Rdiv_lt_0_compat; lra).
  revert A B C. set (F1 := 4 * u / (u + 1) ^ 2). set (F2 := 2 / (u + 1)). set (F3 := 2 / (s + 1)). set (F4 := 4 * s / (s + 1) ^ 2).
  unfold Q2R; cbn [Qnum Qden]. intros. lra.
Qed.

(** ** C35 *)
Theorem C35_ranges (x : R) :
  0 < scalar_f Sigmoid x < 1 /\ -1 < scalar_f Tanh x < 1 /\ -1 < scalar_f SoftSign x < 1 /\
  0 <= scalar_f ReLU x /\ 0 < scalar_f SoftPlus x.
Proof.
  rewrite !act_std. cbn [std_act]. pose proof (expp x). pose proof (expp (- x)). pose proof (Rabs_pos x).
  repeat split.
  - apply Rdiv_lt_0_compat; lra.
  - apply Rlt_div_l; lra.
  - apply Rlt_div_r; lra.
  - apply Rlt_div_l; lra.
  - apply Rlt_div_r; [lra|]. unfold Rabs. destruct (Rcase_abs x); lra.
  - apply Rlt_div_l; [lra|]. unfold Rabs. destruct (Rcase_abs x); lra.
  - apply Rmax_l.
  - rewrite <- ln_1. apply ln_increasing; lra.
Qed.
Lemma tanh_mono x y : x <= y -> tanh x <= tanh y.
Proof.
  intros [H| ->]; [|lra]. rewrite !tanh_eq. assert (exp (2 * x) < exp (2 * y)) by (apply exp_increasing; lra).
  pose proof (expp (2 * x)). assert (2 / (exp (2 * y) + 1) <= 2 / (exp (2 * x) + 1)); [|lra].
  apply Rmult_le_compat_l; [lra|]. apply Rinv_le_contravar; lra.
Qed.
Lemma exp_mono x y : x <= y -> exp x <= exp y.
Proof. intros [H| ->]; [|lra]. left. now apply exp_increasing. Qed.
Theorem C35_monotone (a : scalar_activation) (x y : R) :
  a <> GELU -> a <> Swish -> x <= y -> scalar_f a x <= scalar_f a y.
Proof.
  intros Ha Hs Hxy. rewrite !act_std. pose proof (exp_mono x y Hxy) as He. pose proof (expp x). pose proof (expp y).
  destruct a; cbn [std_act]; try (exfalso; congruence); unfold Q2R; cbn [Qnum Qden].
  - lra.
  - apply Rle_max_compat_l. auto.
  - destruct (Rlt_dec 0 x), (Rlt_dec 0 y); try lra. pose proof (exp_mono x 0 ltac:(lra)) as H1. rewrite exp_0 in H1. lra.
  - destruct (Rlt_dec 0 x), (Rlt_dec 0 y); try lra.
  - destruct (Rlt_dec 0 x), (Rlt_dec 0 y); try lra. pose proof (exp_mono x 0 ltac:(lra)) as H1. rewrite exp_0 in H1. lra.
  - pose proof (exp_mono (- y) (- x) ltac:(lra)). pose proof (expp (- y)).
    apply Rmult_le_compat_l; [lra|]. apply Rinv_le_contravar; lra.
  - pose proof (tanh_mono x y Hxy) as Ht. pose proof (act_std Tanh x) as E1. pose proof (act_std Tanh y) as E2. cbn [std_act] in E1, E2. rewrite <- E1, <- E2. exact Ht.
  - unfold Rabs. destruct (Rcase_abs x), (Rcase_abs y); try lra.
    + apply Rle_div_l; [lra|]. unfold Rdiv. rewrite Rmult_assoc. rewrite <- (Rmult_1_l x) at 1.
      apply Rminus_le_0. replace (_ - _) with ((y - x) / (1 + - y)) by (field; lra). apply Rle_mult_inv_pos; lra.
    + apply Rle_trans with 0; [apply Rle_div_l; lra|apply Rle_mult_inv_pos; lra].
    + apply Rminus_le_0. replace (_ - _) with ((y - x) / ((1 + y) * (1 + x))) by (field; lra).
      apply Rle_mult_inv_pos; [lra|]. apply Rmult_lt_0_compat; lra.
  - apply Rcomplements.ln_le; lra.
  - destruct (Rlt_dec x 0), (Rlt_dec y 0), (Rlt_dec 1 x), (Rlt_dec 1 y); lra.
  - pose proof (tanh_mono x y Hxy) as Ht. pose proof tanh_0'.
    destruct (Rlt_dec x 0), (Rlt_dec y 0); try lra.
    pose proof (tanh_mono x 0 ltac:(lra)). pose proof (tanh_mono 0 y ltac:(lra)). lra.
Qed.
(** swish and gelu are not monotone; this is why they are excluded *)
Example swish_not_monotone : scalar_f Swish (-2) < scalar_f Swish 0 /\ scalar_f Swish (-1) < scalar_f Swish (-8).
Proof.
  rewrite !act_std. cbn [std_act]. replace (- -2) with 2 by lra. replace (- -1) with 1 by lra. replace (- -8) with 8 by lra. rewrite Ropp_0, exp_0.
  pose proof (expp 2). pose proof (exp_le3 1 1 ltac:(cbn; lra)). pose proof (exp_ge2 8 8 ltac:(cbn; lra)). pose proof (expp 1). split.
  - assert (0 < 1 / (1 + exp 2)) by (apply Rdiv_lt_0_compat; lra). lra.
  - assert (1 / 4 <= 1 / (1 + exp 1)) by (apply Rmult_le_compat_l; [lra|]; apply Rinv_le_contravar; lra).
    assert (1 / (1 + exp 8) <= 1 / 257) by (apply Rmult_le_compat_l; [lra|]; apply Rinv_le_contravar; lra). lra.
Qed.

(** ** C36 *)
Lemma vmax_is_max n (x : Z -> R) : (0 < n)%Z ->
  (forall i, (0 <= i < n)%Z -> x i <= vmax (NT := Num_R) n x) /\ exists k, (0 <= k < n)%Z /\ vmax (NT := Num_R) n x = x k.
Proof.
  intros Hn. unfold vmax. remember (n - 1)%Z as q. replace n with (q + 1)%Z by lia. assert (Hq : (0 <= q)%Z) by lia. clear Heqq Hn n.
  revert q Hq. apply natlike_ind.
  - rewrite zfold_0. split; [|exists 0%Z; split; auto; lia]. intros i Hi. replace i with 0%Z by lia. lra.
  - intros q Hq [IH1 (k & Hk & Ek)]. unfold Z.succ. rewrite zfold_S by auto.
    set (v := zfold q _ (x 0%Z)) in *. cbn [ltb Num_R]. unfold Rltb. destruct (Rlt_dec v (x (q + 1)%Z)) as [H|H]; split.
    + intros i Hi. destruct (Z.eq_dec i (q + 1)) as [->|]; [lra|]. specialize (IH1 i ltac:(lia)). lra.
    + exists (q + 1)%Z. split; auto. lia.
    + intros i Hi. destruct (Z.eq_dec i (q + 1)) as [->|]; [lra|]. apply IH1. lia.
    + exists k. split; auto. lia.
Qed.
Lemma softmax_shift n (x : Z -> R) c i : (0 < n)%Z -> std_softmax n (fun j => x j + c) i = std_softmax n x i.
Proof.
  intros Hn. unfold std_softmax. pose proof (sumexp_pos n x Hn). pose proof (expp c).
  replace (rsum n (fun j => exp (x j + c))) with (rsum n (fun j => exp (x j)) * exp c).
  - rewrite exp_plus. field. lra.
  - unfold rsum. rewrite <- zsum_scal_r. apply zsum_ext. intros. now rewrite exp_plus.
Qed.
Lemma zsum_Rexp e junk n f : zsum (H := Num_Rexp e junk) n f = rsum n f.
Proof. unfold zsum, rsum, zsum. induction (Z.to_nat n); cbn; congruence. Qed.
Lemma vmax_Rexp e junk n x : vmax (NT := Num_Rexp e junk) n x = vmax (NT := Num_R) n x.
Proof. unfold vmax, zfold. induction (Z.to_nat (n - 1)) as [|k IH]; cbn [gfold]; [reflexivity|]. rewrite IH. reflexivity. Qed.
(** SoftMax computes the textbook softmax, even in an arithmetic where exp of any positive number
    and division by zero give garbage: no positive exponent and no zero divisor ever occur. *)
Theorem C36_softmax_value (e junk : R -> R) (result input : ptr) (n : Z) (m : mem R) (x : Z -> R) :
  (0 < n)%Z -> room m result n -> holds m input n x -> operand_ok result n input ->
  exists m', act_f (NT := Num_Rexp e junk) SoftMax result n input n m = Ok (tt, m') /\
             sets result n (std_softmax n x) m m'.
Proof.
  intros Hn Hr Hx Ho.
  destruct (wp_elim _ _ _ _ (wp_act_f (NT := Num_Rexp e junk) SoftMax result n input m x ltac:(auto) Hr Hx Ho)) as ([] & m' & E & S).
  exists m'. split; [exact E|]. eapply sets_holds_ext; [|apply S]. intros i Hi.
  cbn [act_val mul nexp sub div one Num_Rexp].
  rewrite vmax_Rexp.
  destruct (vmax_is_max n x Hn) as [Hle _]. set (v := vmax (NT := Num_R) n x) in *.
  assert (Ed : zsum (H := Num_Rexp e junk) n (fun j => if Rlt_dec 0 (x j - v) then e (x j - v) else exp (x j - v)) =
               rsum n (fun j => exp (x j + - v))).
  { rewrite zsum_Rexp.
    apply rsum_ext. intros j Hj. specialize (Hle j Hj). destruct (Rlt_dec 0 (x j - v)); [lra|reflexivity]. }
  rewrite Ed. pose proof (sumexp_pos n (fun j => x j + - v) Hn) as Hp. cbn beta in Hp.
  specialize (Hle i Hi). destruct (Rlt_dec 0 (x i - v)); [lra|].
  destruct (Req_EM_T _ 0); [lra|]. rewrite <- (softmax_shift n x (- v) i Hn). unfold std_softmax, Rminus. field. lra.
Qed.
(** the unshifted variant gives the same values in exact arithmetic *)
Theorem C36_unstable_softmax_value (result input : ptr) (n : Z) (m : mem R) (x : Z -> R) :
  (0 < n)%Z -> room m result n -> holds m input n x -> operand_ok result n input ->
  exists m', unstable_softmax (NT := Num_R) result n input m = Ok (tt, m') /\
             sets result n (std_softmax n x) m m'.
Proof.
  intros Hn Hr Hx Ho.
  destruct (wp_elim _ _ _ _ (wp_unstable_softmax result n input m x Hn Hr Hx Ho)) as ([] & m' & E & S).
  exists m'. split; [exact E|]. eapply sets_holds_ext; [|apply S]. intros i Hi. cbn [mul nexp div one Num_R].
  pose proof (sumexp_pos n x Hn) as Hp. unfold std_softmax, rsum in *. field. lra.
Qed.
Theorem C36_softmax_is_distribution (n : Z) (x : Z -> R) : (0 < n)%Z ->
  (forall i, (0 <= i < n)%Z -> 0 < std_softmax n x i <= 1) /\ rsum n (std_softmax n x) = 1 /\
  (forall i j, (0 <= i < n)%Z -> (0 <= j < n)%Z -> x i < x j -> std_softmax n x i < std_softmax n x j) /\
  (forall c i, std_softmax n (fun j => x j + c) i = std_softmax n x i).
Proof.
  intros Hn. pose proof (sumexp_pos n x Hn) as Hp.
  assert (Hpos : forall i, (0 <= i < n)%Z -> 0 < std_softmax n x i) by (intros; unfold std_softmax; apply Rdiv_lt_0_compat; auto using exp_pos).
  assert (Hs : rsum n (std_softmax n x) = 1).
  { unfold rsum, std_softmax, Rdiv. rewrite (zsum_scal_r n (/ rsum n (fun j => exp (x j))) (fun i => exp (x i))).
    apply Rinv_r, Rgt_not_eq. exact Hp. }
  repeat split; auto.
  - rewrite <- Hs. apply (zsum_nonneg_term n (std_softmax n x) i); auto. intros. left. auto.
  - intros i j Hi Hj H. unfold std_softmax. apply Rmult_lt_compat_r; [now apply Rinv_0_lt_compat|]. now apply exp_increasing.
  - intros. now apply softmax_shift.
Qed.

(** ** C37: in place and into a separate buffer, any scalar arithmetic *)
Section InPlace.
Context {T : Type} `{NT : Num T}.
Open Scope Z_scope.
Theorem C37_activation_in_place (a : activation) (p q : ptr) (n : Z) (m : mem T) (x : Z -> T) :
  0 < n -> holds m p n x -> room m q n -> disjoint q n p n ->
  exists v m1 m2,
    act_f a p n p n m = Ok (tt, m1) /\ sets p n v m m1 /\
    act_f a q n p n m = Ok (tt, m2) /\ sets q n v m m2.
Proof.
  intros Hn Hx Hq Hd.
  destruct (wp_elim _ _ _ _ (wp_act_f a p n p m x ltac:(auto) (holds_room _ _ _ _ Hx) Hx ltac:(now left))) as ([] & m1 & E1 & S1).
  destruct (wp_elim _ _ _ _ (wp_act_f a q n p m x ltac:(auto) Hq Hx ltac:(now right))) as ([] & m2 & E2 & S2). eauto 8.
Qed.
Theorem C37_activation_derivative_in_place (a : activation) (p q : ptr) (n : Z) (m : mem T) (x : Z -> T) :
  holds m p n x -> room m q n -> disjoint q n p n ->
  exists v m1 m2,
    act_df a p n p n m = Ok (tt, m1) /\ sets p n v m m1 /\
    act_df a q n p n m = Ok (tt, m2) /\ sets q n v m m2.
Proof.
  intros Hx Hq Hd.
  destruct (wp_elim _ _ _ _ (wp_act_df a p n p n m x (holds_room _ _ _ _ Hx) Hx ltac:(now left))) as ([] & m1 & E1 & S1).
  destruct (wp_elim _ _ _ _ (wp_act_df a q n p n m x Hq Hx ltac:(now right))) as ([] & m2 & E2 & S2). eauto 8.
Qed.
(** a scalar activation sets element [i] to the function of element [i] *)
Theorem C37_activation_elementwise (a : scalar_activation) (result input : ptr) (n : Z) (m : mem T) (x : Z -> T) :
  room m result n -> holds m input n x -> operand_ok result n input ->
  exists m1 m2,
    act_f (Scalar a) result n input n m = Ok (tt, m1) /\ sets result n (fun i => scalar_f a (x i)) m m1 /\
    act_df (Scalar a) result n input n m = Ok (tt, m2) /\ sets result n (fun i => scalar_df a (x i)) m m2.
Proof.
  intros Hr Hx Ho.
  destruct (wp_elim _ _ _ _ (wp_act_f (Scalar a) result n input m x ltac:(discriminate) Hr Hx Ho)) as ([] & m1 & E1 & S1).
  destruct (wp_elim _ _ _ _ (wp_act_df (Scalar a) result n input n m x Hr Hx Ho)) as ([] & m2 & E2 & S2). eauto 8.
Qed.

(** What training feeds back from the output layer: [value = act.f(buff)], [delta = loss.df(target, value)],
    [result = act.df(buff)], [result *= delta] (FullyConnected.hpp:182-204, Training/UnifiedNet.hpp:163-168;
    the layer itself is modelled in Layers.v). *)
Definition fed_back (a : activation) (l : loss) (value buff delta target result : ptr) (n : Z) : M T unit :=
  act_f a value n buff n ;;; loss_df l delta n target value ;;; act_df a result n buff n ;;;
  assign_src result n OpMul delta.
Lemma fed_back_ok a l value buff delta target result n m (x t : Z -> T) :
  0 < n -> holds m buff n x -> holds m target n t ->
  room m value n -> room m delta n -> room m result n ->
  disjoint value n buff n -> disjoint value n target n -> disjoint value n delta n ->
  disjoint delta n buff n -> disjoint delta n target n -> disjoint result n buff n -> disjoint result n delta n ->
  exists m', fed_back a l value buff delta target result n m = Ok (tt, m') /\
    holds m' result n (fun i => mul (act_dval a x i) (loss_dval l t (act_val a n x) i)).
Proof.
  intros Hn Hx Ht Rv Rd Rr D1 D2 D3 D4 D5 D6 D7.
  assert (W : wp (fed_back a l value buff delta target result n) m (fun _ m' =>
    holds m' result n (fun i => mul (act_dval a x i) (loss_dval l t (act_val a n x) i)))).
  { unfold fed_back.
    eapply wp_bind'. { apply (wp_act_f a value n buff m x); auto. now right. } intros [] m1 [H1 O1].
    eapply wp_bind'. { apply (wp_loss_df l delta n target value m1 t (act_val a n x)); auto.
      - eapply only_room; eauto.
      - eapply only_holds_disj; eauto.
      - right. now apply disjoint_sym. } intros [] m2 [H2 O2].
    assert (Hx2 : holds m2 buff n x) by (eapply only_holds_disj; [exact O2|auto|]; eapply only_holds_disj; eauto).
    eapply wp_bind'. { apply (wp_act_df a result n buff n m2 x); auto.
      - eapply only_room; [exact O2|]. eapply only_room; eauto.
      - now right. } intros [] m3 [H3 O3].
    assert (H23 : holds m3 delta n (loss_dval l t (act_val a n x))) by (eapply only_holds_disj; eauto).
    eapply wp_conseq. { apply (wp_assign_src result n OpMul delta m3 _ _ H3 H23). now right. }
    intros [] m4 [H4 O4]. exact H4. }
  apply wp_elim in W as ([] & m' & E & S). eauto.
Qed.
End InPlace.

(** ** C38 *)
Theorem C38_loss_values (l : loss) (n : Z) (y_true y_pred : ptr) (m : mem R) (t p : Z -> R) :
  (0 <= n)%Z -> holds m y_true n t -> holds m y_pred n p ->
  loss_f l n y_true y_pred m = Ok (std_loss l n t p, m).
Proof. intros. rewrite (loss_f_ok l n y_true y_pred m t p) by auto. now rewrite loss_val_std. Qed.
Theorem C38_loss_gradient (l : loss) (n : Z) (result y_true y_pred : ptr) (m : mem R) (t p : Z -> R) :
  l = MSE \/ l = LC \/ l = MSLE /\ (forall i, (0 <= i < n)%Z -> -1 < t i /\ -1 < p i) ->
  room m result n -> holds m y_true n t -> holds m y_pred n p ->
  disjoint result n y_true n -> operand_ok result n y_pred ->
  exists g m', loss_df l result n y_true y_pred m = Ok (tt, m') /\ sets result n g m m' /\
    forall i, (0 <= i < n)%Z -> partial (std_loss l n t) p i (g i).
Proof.
  intros Hl Hr Ht Hp Dt Op.
  destruct (wp_elim _ _ _ _ (wp_loss_df l result n y_true y_pred m t p Hr Ht Hp Dt Op)) as ([] & m' & E & S).
  exists (loss_dval l t p), m'. split; [exact E|]. split; [exact S|]. intros i Hi.
  destruct Hl as [->|[->|[-> Hdom]]]; cbn [loss_dval sub add div one nlog ntanh Num_R].
  - now apply g_mse.
  - now apply g_lc.
  - destruct (Hdom i Hi). now apply g_msle.
Qed.
Theorem C38_cce_derived_gradient (n : Z) (result y_true y_pred : ptr) (m : mem R) (t p : Z -> R) :
  (forall i, (0 <= i < n)%Z -> 0 <= p i) ->
  room m result n -> holds m y_true n t -> holds m y_pred n p ->
  operand_ok result n y_true -> operand_ok result n y_pred ->
  exists g m', cce_derived result n y_true y_pred m = Ok (tt, m') /\ sets result n g m m' /\
    forall i, (0 <= i < n)%Z -> partial (std_loss CCE n t) p i (g i).
Proof.
  intros Hpos Hr Ht Hp Ot Op.
  destruct (wp_elim _ _ _ _ (wp_dloss_loop result n y_true y_pred m t p
     (fun t p => div (opp t) (add p epsilon)) Hr Ht Hp Ot Op)) as ([] & m' & E & S).
  eexists _, m'. split; [exact E|]. split; [exact S|]. intros i Hi. unfold epsilon. cbn [div opp add lit Num_R].
  rewrite Q2R_eps. apply g_cce; auto. specialize (Hpos i Hi). unfold eps9. assert (0 < / 10 ^ 9) by lra. lra.
Qed.

(** ** C39: the MAE derivative has the wrong sign - always *)
Theorem C39_mae_gradient_refuted (n : Z) (result y_true y_pred : ptr) (m : mem R) (t p : Z -> R) :
  room m result n -> holds m y_true n t -> holds m y_pred n p ->
  disjoint result n y_true n -> operand_ok result n y_pred ->
  exists g m', loss_df MAE result n y_true y_pred m = Ok (tt, m') /\ sets result n g m m' /\
    forall i, (0 <= i < n)%Z -> p i <> t i ->
      partial (std_loss MAE n t) p i (- g i) /\ ~ partial (std_loss MAE n t) p i (g i).
Proof.
  intros Hr Ht Hp Dt Op.
  destruct (wp_elim _ _ _ _ (wp_loss_df MAE result n y_true y_pred m t p Hr Ht Hp Dt Op)) as ([] & m' & E & S).
  exists (loss_dval MAE t p), m'. split; [exact E|]. split; [exact S|]. intros i Hi Hne.
  pose proof (g_mae n t p i Hi Hne) as Hg. cbn [loss_dval sub opp one zero ltb Num_R]. unfold Rltb.
  destruct (Rlt_dec (t i) (p i)), (Rlt_dec (t i - p i) 0), (Rlt_dec 0 (t i - p i)); try lra.
  - replace (- - (1)) with 1 by lra. split; [exact Hg|]. intros H. pose proof (partial_unique _ _ _ _ _ Hg H). lra.
  - replace (- (1)) with (-1) by lra. split; [exact Hg|]. intros H. pose proof (partial_unique _ _ _ _ _ Hg H). lra.
Qed.

(** What does hold: the result is the negated gradient (and zero where prediction and target agree), so its
    size is right and only the sign is wrong. *)
Theorem C39_mae_negated_gradient_partial (n : Z) (result y_true y_pred : ptr) (m : mem R) (t p : Z -> R) :
  room m result n -> holds m y_true n t -> holds m y_pred n p ->
  disjoint result n y_true n -> operand_ok result n y_pred ->
  exists g m', loss_df MAE result n y_true y_pred m = Ok (tt, m') /\ sets result n g m m' /\
    forall i, (0 <= i < n)%Z -> (p i <> t i -> partial (std_loss MAE n t) p i (- g i)) /\ (p i = t i -> g i = 0).
Proof.
  intros Hr Ht Hp Dt Op.
  destruct (wp_elim _ _ _ _ (wp_loss_df MAE result n y_true y_pred m t p Hr Ht Hp Dt Op)) as ([] & m' & E & S).
  exists (loss_dval MAE t p), m'. split; [exact E|]. split; [exact S|]. intros i Hi.
  split; intros Hne.
  - pose proof (g_mae n t p i Hi Hne) as Hg. cbn [loss_dval sub opp one zero ltb Num_R]. unfold Rltb.
    destruct (Rlt_dec (t i) (p i)), (Rlt_dec (t i - p i) 0), (Rlt_dec 0 (t i - p i)); try lra.
    + replace (- - (1)) with 1 by lra. exact Hg.
    + replace (- (1)) with (-1) by lra. exact Hg.
  - cbn [loss_dval sub opp one zero ltb Num_R]. unfold Rltb. destruct (Rlt_dec (t i - p i) 0), (Rlt_dec 0 (t i - p i)); lra.
Qed.

(** ** C40 *)
Theorem C40_softmax_cross_entropy_gradient (value buff delta target result : ptr) (n : Z) (m : mem R) (x t : Z -> R) (l : loss) :
  l = CCE \/ l = NLL ->
  (0 < n)%Z -> rsum n t = 1 -> holds m buff n x -> holds m target n t ->
  room m value n -> room m delta n -> room m result n ->
  disjoint value n buff n -> disjoint value n target n -> disjoint value n delta n ->
  disjoint delta n buff n -> disjoint delta n target n -> disjoint result n buff n -> disjoint result n delta n ->
  exists g m', fed_back SoftMax l value buff delta target result n m = Ok (tt, m') /\ holds m' result n g /\
    forall i, (0 <= i < n)%Z -> partial (fun x => cross_entropy n t (std_softmax n x)) x i (g i).
Proof.
  intros Hl Hn Hs Hx Ht Rv Rd Rr D1 D2 D3 D4 D5 D6 D7.
  destruct (fed_back_ok SoftMax l value buff delta target result n m x t) as (m' & E & H); auto.
  eexists _, m'. split; [exact E|]. split; [exact H|]. intros i Hi.
  assert (Ev : act_val SoftMax n x i = std_softmax n x i).
  { clear - Hn Hi. cbn [act_val mul nexp sub div one Num_R]. rewrite <- (softmax_shift n x (- vmax n x) i Hn).
    pose proof (sumexp_pos n (fun j => x j + - vmax n x) Hn) as Hp. cbn beta in Hp. unfold std_softmax.
    change (zsum n (fun j => exp (x j - vmax n x))) with (rsum n (fun j => exp (x j + - vmax n x))). unfold Rminus at 1. field. lra. }
  cbv beta. match goal with |- partial _ _ _ ?g => replace g with (std_softmax n x i - t i); [now apply g_ce_softmax|] end.
  destruct Hl as [-> | ->]; cbn [act_dval loss_dval mul one sub Num_R]; rewrite Ev; lra.
Qed.
(** for a one-hot target this is also the gradient of the NLL loss of the softmax *)
Theorem C40_nll_one_hot (n : Z) (t p : Z -> R) (k : Z) :
  (0 <= k < n)%Z -> (forall i, (0 <= i < n)%Z -> t i = if (i =? k)%Z then 1 else 0) ->
  std_loss NLL n t p = cross_entropy n t p /\ rsum n t = 1.
Proof.
  intros Hk Ht. assert (E : forall f : Z -> R, rsum n (fun i => t i * f i) = f k).
  { intros f. rewrite <- (zsum_delta n k f Hk). apply zsum_ext. intros i Hi. rewrite Ht by auto. destruct (Z.eqb_spec i k); lra. }
  split.
  - cbn [std_loss]. unfold cross_entropy. now rewrite !E.
  - rewrite <- (E (fun _ => 1)). apply rsum_ext. intros. lra.
Qed.

(** ** C41 *)
Lemma sigmoid_pos (x : R) : 0 < scalar_f Sigmoid x < 1. Proof. apply C35_ranges. Qed.
(** the loss derivative alone is the true gradient with respect to the pre-activation *)
Theorem C41_bce_loss_derivative_partial (t x : R) :
  derivable_pt_lim (fun z => binary_cross_entropy t (scalar_f Sigmoid z)) x
    (loss_dval BCE (fun _ => t) (fun _ => scalar_f Sigmoid x) 0%Z).
Proof.
  cbn [loss_dval add mul sub one Num_R]. apply is_derive_Reals.
  pose proof (sigmoid_pos x) as [Hp Hq].
  pose proof (d_sigmoid x) as Hd. cbn [scalar_f] in *. unfold binary_cross_entropy.
  set (p := sigmoid (T := R)) in *.
  assert (Ed : sigmoid_derived x = p x * (1 - p x)).
  { unfold p, sigmoid_derived, sigmoid, half. num. rewrite cosh_eq, exp_neg. pose proof (expp x). field. repeat split; nra. }
  assert (D1 : is_derive (fun z => ln (p z)) x ((p x * (1 - p x)) * / p x)).
  { apply (is_derive_comp ln p); [apply is_derive_Reals, derivable_pt_lim_ln; auto|]. now rewrite <- Ed. }
  assert (D2 : is_derive (fun z => ln (1 - p z)) x ((- (p x * (1 - p x))) * / (1 - p x))).
  { apply (is_derive_comp ln (fun z => 1 - p z)); [apply is_derive_Reals, derivable_pt_lim_ln; lra|].
    rewrite <- Ed. replace (- sigmoid_derived x) with (0 - sigmoid_derived x) by lra.
    apply (is_derive_minus (K := R_AbsRing) (V := R_NormedModule)); [apply d_const|exact Hd]. }
  evar_last.
  { apply (is_derive_opp (K := R_AbsRing) (V := R_NormedModule)).
    apply (is_derive_plus (K := R_AbsRing) (V := R_NormedModule)).
    - apply (is_derive_scal (fun z => ln (p z)) x t). exact D1.
    - apply (is_derive_scal (fun z => ln (1 - p z)) x (1 - t)). exact D2. }
  clearbody p. cbn. field. lra.
Qed.
(** but what is fed back has an extra factor sigmoid'(x): it is the gradient only where it is zero *)
Theorem C41_sigmoid_bce_refuted (value buff delta target result : ptr) (m : mem R) (x t : Z -> R) (n : Z) :
  (0 < n)%Z -> holds m buff n x -> holds m target n t ->
  room m value n -> room m delta n -> room m result n ->
  disjoint value n buff n -> disjoint value n target n -> disjoint value n delta n ->
  disjoint delta n buff n -> disjoint delta n target n -> disjoint result n buff n -> disjoint result n delta n ->
  exists g m', fed_back (Scalar Sigmoid) BCE value buff delta target result n m = Ok (tt, m') /\ holds m' result n g /\
    forall i, (0 <= i < n)%Z -> scalar_f Sigmoid (x i) <> t i ->
      ~ derivable_pt_lim (fun z => binary_cross_entropy (t i) (scalar_f Sigmoid z)) (x i) (g i).
Proof.
  intros Hn Hx Ht Rv Rd Rr D1 D2 D3 D4 D5 D6 D7.
  destruct (fed_back_ok (Scalar Sigmoid) BCE value buff delta target result n m x t) as (m' & E & H); auto.
  eexists _, m'. split; [exact E|]. split; [exact H|]. intros i Hi Hne Hbad.
  pose proof (uniqueness_limite _ _ _ _ Hbad (C41_bce_loss_derivative_partial (t i) (x i))) as Heq.
  cbn [act_dval act_val loss_dval mul add sub one Num_R] in Heq.
  pose proof (sigmoid_pos (x i)) as [Hp Hq].
  assert (Hd : scalar_df Sigmoid (x i) < 1).
  { cbn [scalar_df]. unfold sigmoid_derived, half. num. pose proof (cosh_ge1 (x i)). apply Rlt_div_l; lra. }
  assert ((scalar_df Sigmoid (x i) - 1) * (scalar_f Sigmoid (x i) - t i) = 0) as Hz by lra.
  apply Rmult_integral in Hz as [Hz|Hz]; lra.
Qed.

(** ** C42 *)
Lemma ln_cosh_0 x : 0 <= ln (cosh x) /\ (ln (cosh x) = 0 -> x = 0).
Proof.
  pose proof (cosh_ge1 x) as H. split.
  - rewrite <- ln_1. apply Rcomplements.ln_le; lra.
  - intros E. assert (Hc : cosh x = 1). { rewrite <- (exp_ln (cosh x)) by lra. now rewrite E, exp_0. }
    rewrite cosh_eq in Hc. pose proof (expp x) as Hx.
    assert (Hs : (exp x - 1) * (exp x - 1) = 0).
    { assert (exp x * (exp x + / exp x) = 2 * exp x) by nra. rewrite Rmult_plus_distr_l, Rinv_r in H0 by lra. nra. }
    assert (exp x = 1) by nra. apply exp_inv. now rewrite exp_0.
Qed.
Definition loss_domain (l : loss) (n : Z) (t p : Z -> R) : Prop :=
  match l with
  | MSE | MAE | LC => True
  | MSLE => forall i, (0 <= i < n)%Z -> -1 < t i /\ -1 < p i
  | _ => False
  end.
Lemma loss_terms (l : loss) (n : Z) (t p : Z -> R) : loss_domain l n t p ->
  exists c f, 0 < c /\ std_loss l n t p = c * rsum n f /\
    forall i, (0 <= i < n)%Z -> 0 <= f i /\ (f i = 0 <-> p i = t i).
Proof.
  destruct l; cbn [loss_domain std_loss]; try tauto; intros Hd.
  - exists (/ 2), (fun i => (t i - p i) ^ 2). split; [lra|]. split; [auto|]. intros i _. split; [apply pow2_ge_0|]. split; [intros H; cbn in H; nra|intros ->; cbn; lra].
  - exists 1, (fun i => Rabs (t i - p i)). split; [lra|]. split; [lra|]. intros i _. split; [apply Rabs_pos|]. split.
    + intros H. destruct (Req_dec (t i - p i) 0) as [|Hne]; [lra|]. now apply Rabs_no_R0 in Hne.
    + intros ->. rewrite Rminus_eq_0. apply Rabs_R0.
  - exists (/ 2), (fun i => ln ((1 + p i) / (1 + t i)) ^ 2). split; [lra|]. split; [auto|]. intros i Hi. destruct (Hd i Hi) as [Ht Hp].
    split; [apply pow2_ge_0|]. split.
    + intros H. assert (Hl : ln ((1 + p i) / (1 + t i)) = 0) by (cbn in H; nra).
      assert (Hq : 0 < (1 + p i) / (1 + t i)) by (apply Rdiv_lt_0_compat; lra).
      assert (H1 : (1 + p i) / (1 + t i) = 1) by (rewrite <- (exp_ln _ Hq); now rewrite Hl, exp_0).
      assert (1 + p i = (1 + p i) / (1 + t i) * (1 + t i)) by (field; lra). rewrite H1 in H0. lra.
    + intros ->. unfold Rdiv. rewrite Rinv_r by lra. rewrite ln_1. cbn. lra.
  - exists 1, (fun i => ln (cosh (p i - t i))). split; [lra|]. split; [lra|]. intros i _. destruct (ln_cosh_0 (p i - t i)) as [H0 H1].
    split; auto. split; [intros H; specialize (H1 H); lra|intros ->]. now rewrite Rminus_eq_0, cosh_0, ln_1.
Qed.
Theorem C42_loss_zero_iff_perfect (l : loss) (n : Z) (y_true y_pred : ptr) (m : mem R) (t p : Z -> R) :
  loss_domain l n t p -> (0 <= n)%Z -> holds m y_true n t -> holds m y_pred n p ->
  exists v, loss_f l n y_true y_pred m = Ok (v, m) /\ 0 <= v /\
    (v = 0 <-> forall i, (0 <= i < n)%Z -> p i = t i).
Proof.
  intros Hd Hn Ht Hp. exists (std_loss l n t p). split; [now apply C38_loss_values|].
  destruct (loss_terms l n t p Hd) as (c & f & Hc & -> & Hf).
  assert (H0 : 0 <= rsum n f) by (apply zsum_nonneg; intros; now apply Hf).
  split; [nra|]. split.
  - intros E i Hi. apply Hf; auto. apply (zsum_zero_nonneg n f); auto; [intros; now apply Hf|]. unfold rsum in *. nra.
  - intros E. unfold rsum. rewrite zsum_all0; [lra|]. intros i Hi. apply Hf; auto.
Qed.

(** ** Concrete cases meeting the hypotheses *)
Module Examples.
Definition blk (l : list R) : option (list (option R)) := Some (map Some l).
(** pre-activations, target, and three buffers of two elements *)
Definition m5 : mem R := [blk [1; -2]; blk [0; 1]; blk [5; 5]; blk [6; 6]; blk [7; 7]].
Lemma h (b : nat) l : nth_error m5 b = Some (blk l) -> holds m5 (Ptr b 0) (Z.of_nat (length l)) (fun i => nth (Z.to_nat i) l 0).
Proof. apply holds_list. Qed.
Definition xs (i : Z) : R := nth (Z.to_nat i) [1; -2] 0.
Definition ts (i : Z) : R := nth (Z.to_nat i) [0; 1] 0.
Example C40_applies : exists g m', fed_back SoftMax NLL (Ptr 2 0) (Ptr 0 0) (Ptr 3 0) (Ptr 1 0) (Ptr 4 0) 2 m5 = Ok (tt, m') /\
  holds m' (Ptr 4 0) 2 g /\ forall i, (0 <= i < 2)%Z -> partial (fun x => cross_entropy 2 ts (std_softmax 2 x)) xs i (g i).
Proof.
  apply C40_softmax_cross_entropy_gradient; try (apply disjoint_blocks; discriminate); auto; try lia.
  - change (0 + 0 + 1 = 1). lra.
  - apply (h 0%nat [1; -2]). reflexivity.
  - apply (h 1%nat [0; 1]). reflexivity.
  - apply (holds_room _ _ _ _ (h 2%nat [5; 5] eq_refl)).
  - apply (holds_room _ _ _ _ (h 3%nat [6; 6] eq_refl)).
  - apply (holds_room _ _ _ _ (h 4%nat [7; 7] eq_refl)).
Qed.
(** the BCE refutation hits a genuine sample: pre-activation 1, target 0 *)
Example C41_applies : exists g m', fed_back (Scalar Sigmoid) BCE (Ptr 2 0) (Ptr 0 0) (Ptr 3 0) (Ptr 1 0) (Ptr 4 0) 2 m5 = Ok (tt, m') /\
  holds m' (Ptr 4 0) 2 g /\ ~ derivable_pt_lim (fun z => binary_cross_entropy 0 (scalar_f Sigmoid z)) 1 (g 0%Z).
Proof.
  destruct (C41_sigmoid_bce_refuted (Ptr 2 0) (Ptr 0 0) (Ptr 3 0) (Ptr 1 0) (Ptr 4 0) m5 xs ts 2) as (g & m' & E & H & N);
    try (apply disjoint_blocks; discriminate); try lia.
  - apply (h 0%nat [1; -2]). reflexivity.
  - apply (h 1%nat [0; 1]). reflexivity.
  - apply (holds_room _ _ _ _ (h 2%nat [5; 5] eq_refl)).
  - apply (holds_room _ _ _ _ (h 3%nat [6; 6] eq_refl)).
  - apply (holds_room _ _ _ _ (h 4%nat [7; 7] eq_refl)).
  - exists g, m'. split; [exact E|]. split; [exact H|]. apply (N 0%Z); [lia|]. unfold xs, ts. cbn [Z.to_nat nth]. pose proof (sigmoid_pos 1). lra.
Qed.
Example C38_applies : exists g m', loss_df MSLE (Ptr 2 0) 2 (Ptr 1 0) (Ptr 4 0) m5 = Ok (tt, m') /\ sets (Ptr 2 0) 2 g m5 m' /\
  forall i, (0 <= i < 2)%Z -> partial (std_loss MSLE 2 ts) (fun i => nth (Z.to_nat i) [7; 7] 0) i (g i).
Proof.
  apply C38_loss_gradient.
  - right. right. split; [reflexivity|]. intros i Hi. assert (Hc : i = 0%Z \/ i = 1%Z) by lia. destruct Hc as [->| ->]; cbv [ts Z.to_nat Pos.to_nat Pos.iter_op Nat.add nth]; lra.
  - apply (holds_room _ _ _ _ (h 2%nat [5; 5] eq_refl)).
  - apply (h 1%nat [0; 1]). reflexivity.
  - apply (h 4%nat [7; 7]). reflexivity.
  - apply disjoint_blocks. discriminate.
  - right. apply disjoint_blocks. discriminate.
Qed.
Example C39_applies : exists g m', loss_df MAE (Ptr 2 0) 2 (Ptr 1 0) (Ptr 0 0) m5 = Ok (tt, m') /\ sets (Ptr 2 0) 2 g m5 m' /\
  ~ partial (std_loss MAE 2 ts) xs 0 (g 0%Z).
Proof.
  destruct (C39_mae_gradient_refuted 2 (Ptr 2 0) (Ptr 1 0) (Ptr 0 0) m5 ts xs) as (g & m' & E & S & N).
  - apply (holds_room _ _ _ _ (h 2%nat [5; 5] eq_refl)).
  - apply (h 1%nat [0; 1]). reflexivity.
  - apply (h 0%nat [1; -2]). reflexivity.
  - apply disjoint_blocks. discriminate.
  - right. apply disjoint_blocks. discriminate.
  - exists g, m'. split; [exact E|]. split; [exact S|]. apply (N 0%Z); [lia|]. unfold xs, ts. cbn [Z.to_nat nth]. lra.
Qed.
Example C33_not_corner : ~ corner ReLU 3 /\ corner ModRelu 1. Proof. cbn. split; [lra|auto]. Qed.
Example C42_domain : loss_domain MSLE 2 ts ts.
Proof. intros i Hi. assert (Hc : i = 0%Z \/ i = 1%Z) by lia. destruct Hc as [->| ->]; cbv [ts Z.to_nat Pos.to_nat Pos.iter_op Nat.add nth]; lra. Qed.
End Examples.

Print Assumptions C33_derivative_wherever_differentiable.
Print Assumptions C34_gelu_derivative_refuted.
Print Assumptions C34_gelu_derivative_at_minus1_0_1_partial.
Print Assumptions C34_gelu_derivative_formula_partial.
Print Assumptions C35_monotone.
Print Assumptions C35_ranges.
Print Assumptions C36_softmax_value.
Print Assumptions C36_softmax_is_distribution.
Print Assumptions C37_activation_in_place.
Print Assumptions C37_activation_derivative_in_place.
Print Assumptions C38_loss_gradient.
Print Assumptions C39_mae_gradient_refuted.
Print Assumptions C39_mae_negated_gradient_partial.
Print Assumptions C40_softmax_cross_entropy_gradient.
Print Assumptions C41_sigmoid_bce_refuted.
Print Assumptions C42_loss_zero_iff_perfect.
