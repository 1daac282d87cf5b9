(** * Analysis of the scalar activations over the reals (proof infrastructure) *)
From Coq Require Import QArith Reals Lra.
From Coquelicot Require Import Coquelicot.
From Verif Require Import Mem Scalar Functions FunctionSpec.
Local Open Scope R_scope.

Lemma exp_neg x : exp (- x) = / exp x. Proof. apply exp_Ropp. Qed.
Lemma expp x : 0 < exp x. Proof. apply exp_pos. Qed.
Lemma cosh_pos x : 0 < cosh x.
Proof. unfold cosh. pose proof (expp x). pose proof (expp (-x)). lra. Qed.
Lemma cosh_eq x : cosh x = (exp x + / exp x) / 2.
Proof. unfold cosh. now rewrite exp_neg. Qed.
Lemma cosh_ge1 x : 1 <= cosh x.
Proof.
  unfold cosh. rewrite exp_neg. pose proof (expp x) as H.
  assert (H0 : 0 <= (exp x - 1) ^ 2 / exp x) by (apply Rle_mult_inv_pos; [apply pow2_ge_0|auto]).
  replace ((exp x - 1) ^ 2 / exp x) with (exp x + / exp x - 2) in H0 by (field; lra). lra.
Qed.
Lemma tanh_eq x : tanh x = 1 - 2 / (exp (2 * x) + 1).
Proof.
  unfold tanh, sinh, cosh. rewrite exp_neg. replace (2 * x) with (x + x) by lra. rewrite exp_plus.
  pose proof (expp x). field. repeat split; nra.
Qed.
Lemma tanh_0' : tanh 0 = 0.
Proof. rewrite tanh_eq. replace (2 * 0) with 0 by lra. rewrite exp_0. lra. Qed.
Lemma is_derive_tanh x : is_derive tanh x (1 / cosh x * (1 / cosh x)).
Proof.
  apply (is_derive_ext (fun x => ((exp x - exp (- x)) / 2) / ((exp x + exp (- x)) / 2))); [reflexivity|].
  pose proof (expp x). pose proof (expp (-x)). unfold cosh.
  auto_derive; [lra|]. rewrite exp_neg. field. repeat split; nra.
Qed.
Lemma is_derive_cosh x : is_derive cosh x (sinh x).
Proof. apply is_derive_Reals, derivable_pt_lim_cosh. Qed.

(** comparison *)
Lemma Rltb_t x y : x < y -> Rltb x y = true.
Proof. intros. unfold Rltb. destruct (Rlt_dec x y); auto; lra. Qed.
Lemma Rltb_f x y : y <= x -> Rltb x y = false.
Proof. intros. unfold Rltb. destruct (Rlt_dec x y); auto; lra. Qed.
Ltac num := cbn [zero one add sub mul div opp ltb nabs nexp nexpm1 nlog nlog1p ntanh ncosh lit Num_R orb] in *; unfold Q2R in *; cbn [Qnum Qden] in *.

(** pieces of a piecewise function *)
Lemma piece_gt (f g : R -> R) (c x d : R) : (forall y, c < y -> f y = g y) -> c < x -> is_derive g x d -> is_derive f x d.
Proof.
  intros H Hx Hd. apply (is_derive_ext_loc g); auto. generalize (open_gt c x Hx). apply filter_imp. intros y Hy. symmetry. auto.
Qed.
Lemma piece_lt (f g : R -> R) (c x d : R) : (forall y, y < c -> f y = g y) -> x < c -> is_derive g x d -> is_derive f x d.
Proof.
  intros H Hx Hd. apply (is_derive_ext_loc g); auto. generalize (open_lt c x Hx). apply filter_imp. intros y Hy. symmetry. auto.
Qed.
Lemma piece_mid (f g : R -> R) (a b x d : R) : (forall y, a < y < b -> f y = g y) -> a < x < b -> is_derive g x d -> is_derive f x d.
Proof.
  intros H Hx Hd. apply (is_derive_ext_loc g); auto. 
  generalize (filter_and _ _ (open_gt a x (proj1 Hx)) (open_lt b x (proj2 Hx))). apply filter_imp. intros y Hy. symmetry. auto.
Qed.

(** a kink: one-sided derivatives *)
Lemma side_unique (side : R -> Prop) f g x d1 d2 :
  (forall eps, 0 < eps -> exists h, h <> 0 /\ Rabs h < eps /\ side (x + h)) ->
  f x = g x -> (forall y, side y -> f y = g y) -> derivable_pt_lim f x d1 -> derivable_pt_lim g x d2 -> d1 = d2.
Proof.
  intros Hs Hx Hfg H1 H2. destruct (Req_dec d1 d2) as [|Hne]; auto. exfalso.
  set (e := Rabs (d1 - d2) / 2). assert (He : 0 < e) by (unfold e; assert (0 < Rabs (d1 - d2)) by (apply Rabs_pos_lt; lra); lra).
  destruct (H1 e He) as [a Ha], (H2 e He) as [b Hb].
  destruct (Hs (Rmin a b)) as (h & Hh & Hab & Hside). { apply Rmin_pos; [apply cond_pos|apply cond_pos]. }
  specialize (Ha h Hh (Rlt_le_trans _ _ _ Hab (Rmin_l _ _))). specialize (Hb h Hh (Rlt_le_trans _ _ _ Hab (Rmin_r _ _))).
  rewrite (Hfg _ Hside), Hx in Ha.
  assert (Rabs (d1 - d2) < e + e); [|unfold e in *; lra].
  replace (d1 - d2) with (((g (x + h) - g x) / h - d2) - ((g (x + h) - g x) / h - d1)) by lra.
  eapply Rle_lt_trans; [apply Rabs_triang|]. rewrite Rabs_Ropp. lra.
Qed.
Lemma right_unique (f g : R -> R) (x d1 d2 : R) : f x = g x -> (forall y, x < y -> f y = g y) -> derivable_pt_lim f x d1 -> is_derive g x d2 -> d1 = d2.
Proof.
  intros Hx H H1 H2. apply (side_unique (fun y => x < y) f g x); auto; [|now apply is_derive_Reals].
  intros eps He. exists (eps / 2). split; [lra|]. split; [rewrite Rabs_right; lra|lra].
Qed.
Lemma left_unique (f g : R -> R) (x d1 d2 : R) : f x = g x -> (forall y, y < x -> f y = g y) -> derivable_pt_lim f x d1 -> is_derive g x d2 -> d1 = d2.
Proof.
  intros Hx H H1 H2. apply (side_unique (fun y => y < x) f g x); auto; [|now apply is_derive_Reals].
  intros eps He. exists (- (eps / 2)). split; [lra|]. split; [rewrite Rabs_Ropp, Rabs_right; lra|lra].
Qed.

(** ** derivatives *)
Lemma d_const (c x : R) : is_derive (fun _ : R => c) x 0.
Proof. apply is_derive_Reals, derivable_pt_lim_const. Qed.
Lemma d_id (x : R) : is_derive (fun y : R => y) x 1.
Proof. apply is_derive_Reals, derivable_pt_lim_id. Qed.
Lemma d_identity x : is_derive (identity (T := R)) x (identity_derived x).
Proof. unfold identity, identity_derived. num. apply d_id. Qed.
Lemma d_sigmoid x : is_derive (sigmoid (T := R)) x (sigmoid_derived x).
Proof.
  unfold sigmoid, sigmoid_derived, half. num. pose proof (expp x). pose proof (expp (-x)).
  auto_derive; [lra|]. rewrite cosh_eq, !exp_neg. field. repeat split; nra.
Qed.
Lemma d_tanh x : is_derive (tanh_f (T := R)) x (tanh_derived x).
Proof. unfold tanh_f, tanh_derived. num. apply is_derive_tanh. Qed.
Lemma d_softplus x : is_derive (softplus (T := R)) x (softplus_derived x).
Proof.
  unfold softplus, softplus_derived. num. pose proof (expp x). auto_derive; [lra|]. rewrite exp_neg. field. split; nra.
Qed.
Lemma d_swish x : is_derive (swish (T := R)) x (swish_derived x).
Proof.
  unfold swish, swish_derived. num. pose proof (expp (-x)). auto_derive; [lra|]. field. lra.
Qed.
Lemma d_softsign x : is_derive (softsign (T := R)) x (softsign_derived x).
Proof.
  unfold softsign, softsign_derived. num. destruct (Rtotal_order x 0) as [Hx|[->|Hx]].
  - apply (piece_lt _ (fun y => y / (- y + 1)) 0); [intros y Hy; now rewrite Rabs_left by lra|auto|].
    rewrite Rabs_left by lra. auto_derive; [lra|]. field. lra.
  - rewrite Rabs_R0. apply is_derive_Reals. intros e He. exists (mkposreal e He). intros h Hh Hd. cbn in Hd.
    rewrite Rplus_0_l, Rabs_R0. pose proof (Rabs_pos h).
    replace ((h / (Rabs h + 1) - 0 / (0 + 1)) / h - 1 / (0 + 1) * (1 / (0 + 1))) with (- (Rabs h / (Rabs h + 1))) by (field; lra).
    rewrite Rabs_Ropp, Rabs_right.
    + apply Rle_lt_trans with (Rabs h); auto. apply Rle_div_l; nra.
    + apply Rle_ge, Rle_mult_inv_pos; lra.
  - apply (piece_gt _ (fun y => y / (y + 1)) 0); [intros y Hy; now rewrite Rabs_right by lra|auto|].
    rewrite Rabs_right by lra. auto_derive; [lra|]. field. lra.
Qed.
Lemma d_pos0 (f g : R -> R) (d : R) x : 0 < x -> (forall y, 0 < y -> f y = g y) -> is_derive g x d -> is_derive f x d.
Proof. intros. eapply (piece_gt f g 0); eauto. Qed.
Lemma d_neg0 (f g : R -> R) (d : R) x : x < 0 -> (forall y, y < 0 -> f y = g y) -> is_derive g x d -> is_derive f x d.
Proof. intros. eapply (piece_lt f g 0); eauto. Qed.
Ltac pos_case := intros; unfold gt0; num; rewrite Rltb_t by lra; reflexivity.
Ltac neg_case := intros; unfold gt0; num; rewrite Rltb_f by lra; reflexivity.
Lemma d_relu x : x <> 0 -> is_derive (relu (T := R)) x (relu_derived x).
Proof.
  intros Hx. destruct (Rdichotomy _ _ Hx).
  - replace (relu_derived x) with 0 by (unfold relu_derived; symmetry; neg_case).
    apply (d_neg0 _ (fun _ => 0)); auto; [unfold relu; neg_case|]. apply d_const.
  - replace (relu_derived x) with 1 by (unfold relu_derived; symmetry; pos_case).
    apply (d_pos0 _ (fun y => y)); auto; [unfold relu; pos_case|]. apply d_id.
Qed.
Lemma d_lrelu x : x <> 0 -> is_derive (lrelu (T := R)) x (lrelu_derived x).
Proof.
  intros Hx. destruct (Rdichotomy _ _ Hx).
  - replace (lrelu_derived x) with (1 * / 100) by (unfold lrelu_derived; symmetry; neg_case).
    apply (d_neg0 _ (fun y => 1 * / 100 * y)); auto; [unfold lrelu; neg_case|]. auto_derive; auto. lra.
  - replace (lrelu_derived x) with 1 by (unfold lrelu_derived; symmetry; pos_case).
    apply (d_pos0 _ (fun y => y)); auto; [unfold lrelu; pos_case|]. apply d_id.
Qed.
Lemma d_elu x : x <> 0 -> is_derive (elu (T := R)) x (elu_derived x).
Proof.
  intros Hx. destruct (Rdichotomy _ _ Hx).
  - replace (elu_derived x) with (2 * / 10 * exp x) by (unfold elu_derived; symmetry; neg_case).
    apply (d_neg0 _ (fun y => 2 * / 10 * (exp y - 1))); auto; [unfold elu; neg_case|]. auto_derive; auto. lra.
  - replace (elu_derived x) with 1 by (unfold elu_derived; symmetry; pos_case).
    apply (d_pos0 _ (fun y => y)); auto; [unfold elu; pos_case|]. apply d_id.
Qed.
Lemma d_selu x : x <> 0 -> is_derive (selu (T := R)) x (selu_derived x).
Proof.
  intros Hx. destruct (Rdichotomy _ _ Hx).
  - replace (selu_derived x) with (1758099 * / 1000000 * exp x) by (unfold selu_derived; symmetry; neg_case).
    apply (d_neg0 _ (fun y => 1758099 * / 1000000 * (exp y - 1))); auto; [unfold selu; neg_case|]. auto_derive; auto. lra.
  - replace (selu_derived x) with (1050701 * / 1000000) by (unfold selu_derived; symmetry; pos_case).
    apply (d_pos0 _ (fun y => 1050701 * / 1000000 * y)); auto; [unfold selu; pos_case|]. auto_derive; auto. lra.
Qed.
Lemma d_mod_tanh x : x <> 0 -> is_derive (mod_tanh (T := R)) x (mod_tanh_derived x).
Proof.
  intros Hx. destruct (Rdichotomy _ _ Hx).
  - replace (mod_tanh_derived x) with (1 * / 100 * (1 / cosh x * (1 / cosh x))) by (unfold mod_tanh_derived; num; rewrite Rltb_t by lra; reflexivity).
    apply (d_neg0 _ (fun y => 1 * / 100 * tanh y)); auto; [intros; unfold mod_tanh; num; rewrite Rltb_t by lra; reflexivity|].
    apply (is_derive_scal tanh). apply is_derive_tanh.
  - replace (mod_tanh_derived x) with (1 / cosh x * (1 / cosh x)) by (unfold mod_tanh_derived; num; rewrite Rltb_f by lra; reflexivity).
    apply (d_pos0 _ tanh); auto; [intros; unfold mod_tanh; num; rewrite Rltb_f by lra; reflexivity|]. apply is_derive_tanh.
Qed.
Lemma d_mod_relu x : x <> 0 -> x <> 1 -> is_derive (mod_relu (T := R)) x (mod_relu_derived x).
Proof.
  intros Hx Hx1. destruct (Rdichotomy _ _ Hx); [|destruct (Rdichotomy _ _ Hx1)].
  - replace (mod_relu_derived x) with (1 * / 100) by (unfold mod_relu_derived; num; rewrite Rltb_t by lra; reflexivity).
    apply (d_neg0 _ (fun y => 1 * / 100 * y)); auto; [intros; unfold mod_relu; num; rewrite Rltb_t by lra; reflexivity|]. auto_derive; auto; lra.
  - replace (mod_relu_derived x) with 1 by (unfold mod_relu_derived; num; rewrite !Rltb_f by lra; reflexivity).
    apply (piece_mid _ (fun y => y) 0 1); [|lra|apply d_id].
    intros; unfold mod_relu; num; rewrite !Rltb_f by lra; reflexivity.
  - replace (mod_relu_derived x) with (1 * / 100) by (unfold mod_relu_derived; num; rewrite Rltb_f, Rltb_t by lra; reflexivity).
    apply (piece_gt _ (fun y => 99 * / 100 + 1 * / 100 * y) 1); [|lra|auto_derive; auto; lra].
    intros; unfold mod_relu; num; rewrite Rltb_f, Rltb_t by lra; reflexivity.
Qed.

(** ** kinks are not differentiable *)
Lemma k_relu d : ~ derivable_pt_lim (relu (T := R)) 0 d.
Proof.
  intros H. assert (E0 : relu (T := R) 0 = 0) by (unfold relu; neg_case).
  assert (d = 1). { eapply (right_unique _ (fun y => y)); [exact E0| |exact H|apply d_id]. unfold relu; pos_case. }
  assert (d = 0). { eapply (left_unique _ (fun _ => 0)); [exact E0| |exact H|apply d_const]. unfold relu; neg_case. }
  lra.
Qed.
Lemma k_lrelu d : ~ derivable_pt_lim (lrelu (T := R)) 0 d.
Proof.
  intros H. assert (E0 : lrelu (T := R) 0 = 1 * / 100 * 0) by (unfold lrelu; neg_case).
  assert (d = 1). { eapply (right_unique _ (fun y => y)); [rewrite E0; lra| |exact H|apply d_id]. unfold lrelu; pos_case. }
  assert (d = 1 * / 100). { eapply (left_unique _ (fun y => 1 * / 100 * y)); [exact E0| |exact H|auto_derive; auto; lra]. unfold lrelu; neg_case. }
  lra.
Qed.
Lemma k_elu d : ~ derivable_pt_lim (elu (T := R)) 0 d.
Proof.
  intros H. assert (E0 : elu (T := R) 0 = 2 * / 10 * (exp 0 - 1)) by (unfold elu; neg_case). pose proof exp_0.
  assert (d = 1). { eapply (right_unique _ (fun y => y)); [rewrite E0; lra| |exact H|apply d_id]. unfold elu; pos_case. }
  assert (d = 2 * / 10 * exp 0). { eapply (left_unique _ (fun y => 2 * / 10 * (exp y - 1))); [exact E0| |exact H|auto_derive; auto; lra]. unfold elu; neg_case. }
  lra.
Qed.
Lemma k_selu d : ~ derivable_pt_lim (selu (T := R)) 0 d.
Proof.
  intros H. assert (E0 : selu (T := R) 0 = 1758099 * / 1000000 * (exp 0 - 1)) by (unfold selu; neg_case). pose proof exp_0.
  assert (d = 1050701 * / 1000000). { eapply (right_unique _ (fun y => 1050701 * / 1000000 * y)); [rewrite E0; lra| |exact H|auto_derive; auto; lra]. unfold selu; pos_case. }
  assert (d = 1758099 * / 1000000 * exp 0). { eapply (left_unique _ (fun y => 1758099 * / 1000000 * (exp y - 1))); [exact E0| |exact H|auto_derive; auto; lra]. unfold selu; neg_case. }
  lra.
Qed.
Lemma k_mod_tanh d : ~ derivable_pt_lim (mod_tanh (T := R)) 0 d.
Proof.
  intros H. assert (E0 : mod_tanh (T := R) 0 = tanh 0) by (unfold mod_tanh; num; rewrite Rltb_f by lra; reflexivity).
  assert (T0 : tanh 0 = 0) by apply tanh_0'. assert (C0 : cosh 0 = 1) by apply cosh_0.
  assert (A : d = 1 / cosh 0 * (1 / cosh 0)). { eapply (right_unique _ tanh); [exact E0| |exact H|apply is_derive_tanh]. intros; unfold mod_tanh; num; rewrite Rltb_f by lra; reflexivity. }
  assert (B : d = 1 * / 100 * (1 / cosh 0 * (1 / cosh 0))). { eapply (left_unique _ (fun y => 1 * / 100 * tanh y)); [rewrite E0, T0; lra| |exact H|apply (is_derive_scal tanh); apply is_derive_tanh]. intros; unfold mod_tanh; num; rewrite Rltb_t by lra; reflexivity. }
  rewrite C0 in *. lra.
Qed.
Lemma k_mod_relu0 d : ~ derivable_pt_lim (mod_relu (T := R)) 0 d.
Proof.
  intros H. assert (E0 : mod_relu (T := R) 0 = 0) by (unfold mod_relu; num; rewrite !Rltb_f by lra; reflexivity).
  assert (d = 1 * / 100). { eapply (left_unique _ (fun y => 1 * / 100 * y)); [rewrite E0; lra| |exact H|auto_derive; auto; lra]. intros; unfold mod_relu; num; rewrite Rltb_t by lra; reflexivity. }
  assert (d = 1); [|lra].
  apply (side_unique (fun y => 0 < y < 1) mod_relu (fun y => y) 0); auto.
  - intros eps He. exists (Rmin (eps / 2) (1 / 2)). assert (0 < Rmin (eps / 2) (1 / 2)) by (apply Rmin_pos; lra).
    pose proof (Rmin_l (eps / 2) (1 / 2)). pose proof (Rmin_r (eps / 2) (1 / 2)).
    split; [lra|]. split; [rewrite Rabs_right; lra|lra].
  - intros; unfold mod_relu; num; rewrite !Rltb_f by lra; reflexivity.
  - apply derivable_pt_lim_id.
Qed.
Lemma k_mod_relu1 d : ~ derivable_pt_lim (mod_relu (T := R)) 1 d.
Proof.
  intros H. assert (E0 : mod_relu (T := R) 1 = 1) by (unfold mod_relu; num; rewrite !Rltb_f by lra; reflexivity).
  assert (d = 1 * / 100). { eapply (right_unique _ (fun y => 99 * / 100 + 1 * / 100 * y)); [rewrite E0; lra| |exact H|auto_derive; auto; lra]. intros; unfold mod_relu; num; rewrite Rltb_f, Rltb_t by lra; reflexivity. }
  assert (d = 1); [|lra].
  apply (side_unique (fun y => 0 < y < 1) mod_relu (fun y => y) 1); auto.
  - intros eps He. exists (- Rmin (eps / 2) (1 / 2)). assert (0 < Rmin (eps / 2) (1 / 2)) by (apply Rmin_pos; lra).
    pose proof (Rmin_l (eps / 2) (1 / 2)). pose proof (Rmin_r (eps / 2) (1 / 2)).
    split; [lra|]. split; [rewrite Rabs_Ropp, Rabs_right; lra|lra].
  - intros; unfold mod_relu; num; rewrite !Rltb_f by lra; reflexivity.
  - apply derivable_pt_lim_id.
Qed.

(** ** GELU *)
Definition gelu_true_derivative (x : R) : R :=
  let a := 797885 / 1000000 in let b := 356774 / 10000000 in
  let y := a * x + b * x ^ 3 in
  1 / 2 * (tanh y + 1) + 1 / 2 * x * (1 / cosh y * (1 / cosh y)) * (a + 3 * b * x ^ 2).
Lemma d_gelu x : is_derive (gelu (T := R)) x (gelu_true_derivative x).
Proof.
  unfold gelu, gelu_true_derivative, half. num. cbv zeta.
  set (a := 797885 / 1000000). set (b := 356774 / 10000000).
  apply (is_derive_ext (fun x => (1 * / 2 * x) * (tanh (a * x + b * x ^ 3) + 1))).
  { intros t. unfold a, b. do 2 f_equal. f_equal. lra. }
  assert (H : is_derive (fun x => tanh (a * x + b * x ^ 3)) x ((a + 3 * b * x ^ 2) * (1 / cosh (a * x + b * x ^ 3) * (1 / cosh (a * x + b * x ^ 3))))).
  { apply (is_derive_comp tanh (fun x => a * x + b * x ^ 3)); [apply is_derive_tanh|]. auto_derive; auto. cbn. lra. }
  evar_last.
  { apply (is_derive_mult (fun x => 1 * / 2 * x) (fun x => tanh (a * x + b * x ^ 3) + 1)).
    - auto_derive; auto.
    - apply (is_derive_plus _ (fun _ => 1)); [exact H|apply d_const].
    - intros. apply Rmult_comm. }
  cbn. unfold plus, mult, zero. cbn. lra.
Qed.
