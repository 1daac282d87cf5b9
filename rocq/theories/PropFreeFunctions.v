(** * Property C123: derivative functions that no activation or loss class uses *)
From Coq Require Import QArith Reals Lra.
From Coquelicot Require Import Coquelicot.
From Verif Require Import Mem Scalar Functions FunctionSpec MemSpec MemLemmas LiqueProofs LinearProofs FunctionProofs Lique RSum RealSpec ActivationProofs LossProofs.
Local Open Scope R_scope.

(** The derivative of the sigmoid computed from its value. *)
Theorem C123_sigmoid_derivative_from_value (x : R) :
  derivable_pt_lim (scalar_f Sigmoid) x (sigmoid_derived_self (scalar_f Sigmoid x)).
Proof.
  apply is_derive_Reals. evar_last; [apply d_sigmoid|]. cbn [scalar_f]. unfold sigmoid, sigmoid_derived, sigmoid_derived_self, half. num.
  pose proof (expp x). pose proof (expp (- x)). rewrite cosh_eq, !exp_neg. unfold Q2R. cbn [Qnum Qden]. field. repeat split; nra.
Qed.

Lemma g_bce n t p i : (0 <= i < n)%Z -> 0 < p i + eps9 -> 0 < 1 - p i + eps9 ->
  partial (std_loss BCE n t) p i ((1 - t i) / (1 - p i + eps9) - t i / (p i + eps9)).
Proof.
  intros Hi H1 H2.
  replace ((1 - t i) / (1 - p i + eps9) - t i / (p i + eps9)) with (-1 * (t i / (p i + eps9) - (1 - t i) / (1 - p i + eps9))) by lra.
  apply (partial_ext (fun q => -1 * rsum n (fun j => t j * ln (q j + eps9) + (1 - t j) * ln (1 - q j + eps9)))); [intros; cbn; lra|].
  apply (partial_scal (fun q => rsum n (fun j => t j * ln (q j + eps9) + (1 - t j) * ln (1 - q j + eps9)))).
  apply (partial_rsum n (fun j v => t j * ln (v + eps9) + (1 - t j) * ln (1 - v + eps9))); auto. auto_derive; [auto|]. field. lra.
Qed.
Lemma eps9_pos : 0 < eps9.
Proof. unfold eps9. lra. Qed.

Section Bce.
Context (n : Z) (result y_true y_pred : ptr) (m : mem R) (t p : Z -> R).
Context (Hr : room m result n) (Ht : holds m y_true n t) (Hp : holds m y_pred n p)
  (Ot : operand_ok result n y_true) (Op : operand_ok result n y_pred).
Lemma bce_derived_value : exists m', bce_derived result n y_true y_pred m = Ok (tt, m') /\
  sets result n (fun i => (t i - 1) / (p i + (eps9 - 1)) - t i / (p i + eps9)) m m'.
Proof.
  destruct (wp_elim _ _ _ _ (wp_dloss_loop result n y_true y_pred m t p
     (fun t p => sub (div (sub t one) (add p (sub epsilon one))) (div t (add p epsilon))) Hr Ht Hp Ot Op)) as ([] & m' & E & S).
  exists m'. split; [exact E|]. unfold epsilon in S. cbn [sub div add one lit Num_R] in S. rewrite Q2R_eps in S. exact S.
Qed.

(** The binary cross entropy's derivative: for predictions below 1 - 1e-9 the result is the partial
    derivative with an error from taking the guard 1e-9 with the wrong sign in one denominator; it is
    exact for targets 1. *)
Theorem C123_bce_derivative_partial : (forall i, (0 <= i < n)%Z -> 0 <= p i < 1 - eps9) ->
  exists g m', bce_derived result n y_true y_pred m = Ok (tt, m') /\ sets result n g m m' /\
    forall i, (0 <= i < n)%Z -> exists d, partial (std_loss BCE n t) p i d /\
      g i = d + (1 - t i) * (2 * eps9 / ((1 - p i) ^ 2 - eps9 ^ 2)).
Proof.
  intros B. destruct bce_derived_value as (m' & E & S). eexists _, m'. split; [exact E|]. split; [exact S|].
  intros i Hi. specialize (B i Hi). pose proof eps9_pos as P.
  exists ((1 - t i) / (1 - p i + eps9) - t i / (p i + eps9)). split; [apply g_bce; auto; lra|]. field.
  assert (0 < (1 - p i) ^ 2 - eps9 ^ 2) by (replace ((1 - p i) ^ 2 - eps9 ^ 2) with ((1 - p i - eps9) * (1 - p i + eps9)) by ring; apply Rmult_lt_0_compat; lra).
  repeat split; lra.
Qed.
(** For saturated predictions (above 1 - 1e-9, for instance exactly 1) and targets nearer to 0 the true
    derivative is positive and the result negative: descending along it makes the loss larger. *)
Theorem C123_bce_derivative_refuted : (forall i, (0 <= i < n)%Z -> 1 - eps9 < p i <= 1 /\ 0 <= t i <= / 2) ->
  exists g m', bce_derived result n y_true y_pred m = Ok (tt, m') /\ sets result n g m m' /\
    forall i, (0 <= i < n)%Z -> g i < 0 /\ exists d, partial (std_loss BCE n t) p i d /\ 0 < d.
Proof.
  intros B. destruct bce_derived_value as (m' & E & S). eexists _, m'. split; [exact E|]. split; [exact S|].
  intros i Hi. destruct (B i Hi) as [B1 B2]. pose proof eps9_pos as P. assert (Q : eps9 < / 4) by (unfold eps9; lra).
  assert (T1 : 0 <= t i / (p i + eps9)) by (apply Rdiv_le_0_compat; lra).
  split.
  - assert ((t i - 1) / (p i + (eps9 - 1)) < 0). { replace (t i - 1) with (- (1 - t i)) by ring. unfold Rdiv. rewrite Ropp_mult_distr_l_reverse. apply Ropp_lt_gt_0_contravar. apply Rdiv_lt_0_compat; lra. }
    lra.
  - exists ((1 - t i) / (1 - p i + eps9) - t i / (p i + eps9)). split; [apply g_bce; auto; lra|].
    assert (1 <= (1 - t i) / (1 - p i + eps9)). { apply Rmult_le_reg_r with (1 - p i + eps9); [lra|]. unfold Rdiv. rewrite Rmult_assoc, Rinv_l by lra. lra. }
    assert (t i / (p i + eps9) < 1). { apply Rmult_lt_reg_r with (p i + eps9); [lra|]. unfold Rdiv. rewrite Rmult_assoc, Rinv_l by lra. lra. }
    lra.
Qed.
End Bce.

Module Examples.
(** result, target 0 and prediction 1 in three blocks *)
Definition m0 : mem R := [Some [None]; Some [Some 0]; Some [Some 1]].
Definition m1 : mem R := [Some [None]; Some [Some 0]; Some [Some (/ 2)]].
Example C123_applies :
  (exists g m', bce_derived (Ptr 0 0) 1 (Ptr 1 0) (Ptr 2 0) m0 = Ok (tt, m') /\ sets (Ptr 0 0) 1 g m0 m' /\
    forall i, (0 <= i < 1)%Z -> g i < 0 /\ exists d, partial (std_loss BCE 1 (fun _ => 0)) (fun _ => 1) i d /\ 0 < d) /\
  (exists g m', bce_derived (Ptr 0 0) 1 (Ptr 1 0) (Ptr 2 0) m1 = Ok (tt, m') /\ sets (Ptr 0 0) 1 g m1 m' /\
    forall i, (0 <= i < 1)%Z -> exists d, partial (std_loss BCE 1 (fun _ => 0)) (fun _ => / 2) i d /\ g i = d + (1 - 0) * (2 * eps9 / ((1 - / 2) ^ 2 - eps9 ^ 2))).
Proof.
  pose proof eps9_pos as P. assert (Q : eps9 < / 4) by (unfold eps9; lra). split.
  - apply (C123_bce_derivative_refuted 1 (Ptr 0 0) (Ptr 1 0) (Ptr 2 0) m0 (fun _ => 0) (fun _ => 1)).
    + intros i Hi. assert (i = 0%Z) as -> by lia. cbn. discriminate.
    + intros i Hi. assert (i = 0%Z) as -> by lia. reflexivity.
    + intros i Hi. assert (i = 0%Z) as -> by lia. reflexivity.
    + right. intros b i A B. cbn in A, B. lia.
    + right. intros b i A B. cbn in A, B. lia.
    + intros i Hi. lra.
  - apply (C123_bce_derivative_partial 1 (Ptr 0 0) (Ptr 1 0) (Ptr 2 0) m1 (fun _ => 0) (fun _ => / 2)).
    + intros i Hi. assert (i = 0%Z) as -> by lia. cbn. discriminate.
    + intros i Hi. assert (i = 0%Z) as -> by lia. reflexivity.
    + intros i Hi. assert (i = 0%Z) as -> by lia. reflexivity.
    + right. intros b i A B. cbn in A, B. lia.
    + right. intros b i A B. cbn in A, B. lia.
    + intros i Hi. lra.
Qed.
End Examples.

Print Assumptions C123_sigmoid_derivative_from_value.
Print Assumptions C123_bce_derivative_partial.
Print Assumptions C123_bce_derivative_refuted.
