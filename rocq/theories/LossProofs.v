(** * Analysis of losses and softmax over the reals (proof infrastructure) *)
From Coq Require Import QArith Reals Lra.
From Coquelicot Require Import Coquelicot.
From Verif Require Import Mem Scalar Functions FunctionSpec MemSpec MemLemmas LinearProofs FunctionProofs RSum RealSpec ActivationProofs.
Local Open Scope R_scope.

Lemma rsum_ext n f g : (forall i, (0 <= i < n)%Z -> f i = g i) -> rsum n f = rsum n g.
Proof. apply zsum_ext. Qed.
Lemma is_derive_rsum n (F : Z -> R -> R) (D : Z -> R) (x : R) :
  (forall j, (0 <= j < n)%Z -> is_derive (F j) x (D j)) ->
  is_derive (fun v : R => rsum n (fun j => F j v)) x (rsum n D).
Proof.
  unfold rsum. pattern n. apply zsum_cases; clear n.
  - intros n Hn _. rewrite zsum_neg by auto. apply (is_derive_ext (fun _ => 0)); [|apply d_const].
    intros t. now rewrite zsum_neg.
  - intros n Hn IH H. rewrite zsum_S by auto. cbn [add Num_R].
    apply (is_derive_ext (fun v => zsum (H := Num_R) n (fun j => F j v) + F n v)).
    + intros t. now rewrite zsum_S by auto.
    + apply (is_derive_plus (K := R_AbsRing) (V := R_NormedModule)); [apply IH; intros; apply H; lia|apply H; lia].
Qed.
Lemma upd_same x i v : upd x i v i = v.
Proof. unfold upd. now rewrite Z.eqb_refl. Qed.
Lemma upd_other x i v j : j <> i -> upd x i v j = x j.
Proof. intros H. unfold upd. destruct (Z.eqb_spec j i); congruence. Qed.
Lemma upd_id x i : forall j, upd x i (x i) j = x j.
Proof. intros j. unfold upd. destruct (Z.eqb_spec j i); congruence. Qed.

(** a sum of functions of single components *)
Lemma partial_rsum n (G : Z -> R -> R) (p : Z -> R) i d : (0 <= i < n)%Z ->
  is_derive (G i) (p i) d -> partial (fun q => rsum n (fun j => G j (q j))) p i d.
Proof.
  intros Hi Hd. apply is_derive_Reals.
  replace d with (rsum n (fun j => if (j =? i)%Z then d else 0)) by (apply (zsum_delta n i (fun _ => d)); auto).
  apply (is_derive_rsum n (fun j v => G j (upd p i v j))). intros j Hj. destruct (Z.eqb_spec j i) as [->|Hne].
  - apply (is_derive_ext (G i)); auto. intros t. now rewrite upd_same.
  - apply (is_derive_ext (fun _ => G j (p j))); [|apply d_const]. intros t. now rewrite upd_other.
Qed.
Lemma partial_scal F x i d c : partial F x i d -> partial (fun q => c * F q) x i (c * d).
Proof. intros H. unfold partial in *. apply is_derive_Reals, (is_derive_scal (fun v => F (upd x i v))), is_derive_Reals. auto. Qed.
Lemma partial_ext (F G : (Z -> R) -> R) x i d : (forall q, F q = G q) -> partial F x i d -> partial G x i d.
Proof. intros E H. unfold partial in *. apply is_derive_Reals. eapply is_derive_ext; [|apply is_derive_Reals, H]. intros t. apply E. Qed.
Lemma partial_unique F x i d1 d2 : partial F x i d1 -> partial F x i d2 -> d1 = d2.
Proof. apply uniqueness_limite. Qed.

(** values *)
Lemma Q2R_half : Q2R (1#2) = / 2. Proof. unfold Q2R. cbn. lra. Qed.
Lemma Q2R_eps : Q2R (1#1000000000) = eps9. Proof. unfold Q2R, eps9. cbn. lra. Qed.
Lemma zfold_sub n (f : Z -> R) : zfold n (fun i acc => acc - f i) 0 = - rsum n f.
Proof.
  unfold zfold, rsum, zsum. induction (Z.to_nat n) as [|k IH]; cbn [gfold gsum add Num_R zero]; [lra|]. rewrite IH. lra.
Qed.
Lemma loss_val_std l n (t p : Z -> R) : loss_val l n t p = std_loss l n t p.
Proof.
  destruct l; cbn [loss_val std_loss]; unfold half, epsilon, rsum; cbn [zero one add sub mul div opp nlog nlog1p nabs ncosh lit Num_R].
  - rewrite Q2R_half, Rmult_comm. f_equal. apply zsum_ext. intros. lra.
  - apply zsum_ext. intros. apply Rabs_minus_sym.
  - rewrite (zfold_sub n (fun i => t i * ln (p i + Q2R (1#1000000000)))), Q2R_eps. reflexivity.
  - rewrite (zfold_sub n (fun i => t i * ln (p i + Q2R (1#1000000000)) + (1 - t i) * ln (1 + (Q2R (1#1000000000) - p i)))), Q2R_eps.
    f_equal. apply zsum_ext. intros. do 3 f_equal. lra.
  - rewrite Q2R_half, Rmult_comm. f_equal. apply zsum_ext. intros. rewrite (Rplus_comm (p i)), (Rplus_comm (t i)). lra.
  - reflexivity.
  - reflexivity.
Qed.
Lemma act_std a (x : R) : scalar_f a x = std_act a x.
Proof.
  destruct a; cbn [scalar_f std_act]; unfold identity, relu, elu, lrelu, selu, gelu, sigmoid, tanh_f, softsign, softplus, swish, mod_relu, mod_tanh, gt0, half; num; unfold Rltb.
  - reflexivity.
  - destruct (Rlt_dec 0 x); [rewrite Rmax_right; lra|rewrite Rmax_left; lra].
  - destruct (Rlt_dec 0 x); lra.
  - destruct (Rlt_dec 0 x); lra.
  - destruct (Rlt_dec 0 x); lra.
  - replace (x * (797885 * / 1000000) + x * x * x * (356774 * / 10000000)) with (797885 * / 1000000 * x + 356774 * / 10000000 * x ^ 3) by lra. field.
  - f_equal. lra.
  - unfold tanh, sinh, cosh. pose proof (expp x). pose proof (expp (- x)). field. lra.
  - f_equal. lra.
  - f_equal. lra.
  - pose proof (expp (- x)). field. lra.
  - destruct (Rlt_dec x 0), (Rlt_dec 1 x); lra.
  - destruct (Rlt_dec x 0); lra.
Qed.

(** gradients *)
Lemma g_mse n t p i : (0 <= i < n)%Z -> partial (std_loss MSE n t) p i (p i - t i).
Proof.
  intros Hi. replace (p i - t i) with (/ 2 * (2 * (p i - t i))) by lra.
  apply (partial_scal (fun q => rsum n (fun j => (t j - q j) ^ 2))).
  apply (partial_rsum n (fun j v => (t j - v) ^ 2)); auto. auto_derive; auto. lra.
Qed.
Lemma g_msle n t p i : (0 <= i < n)%Z -> -1 < t i -> -1 < p i ->
  partial (std_loss MSLE n t) p i (ln ((p i + 1) / (t i + 1)) / (p i + 1)).
Proof.
  intros Hi Ht Hp. replace (ln ((p i + 1) / (t i + 1)) / (p i + 1)) with (/ 2 * (2 * ln ((1 + p i) / (1 + t i)) / (1 + p i))).
  2:{ rewrite (Rplus_comm (p i)), (Rplus_comm (t i)). lra. }
  apply (partial_scal (fun q => rsum n (fun j => (ln ((1 + q j) / (1 + t j))) ^ 2))).
  apply (partial_rsum n (fun j v => (ln ((1 + v) / (1 + t j))) ^ 2)); auto.
  assert (0 < (1 + p i) / (1 + t i)) by (apply Rdiv_lt_0_compat; lra).
  auto_derive; [auto|]. unfold Rdiv in *. field. lra.
Qed.
Lemma g_lc n t p i : (0 <= i < n)%Z -> partial (std_loss LC n t) p i (tanh (p i - t i)).
Proof.
  intros Hi. apply (partial_rsum n (fun j v => ln (cosh (v - t j)))); auto.
  pose proof (cosh_pos (p i - t i)).
  assert (D : is_derive (fun v => cosh (v - t i)) (p i) (sinh (p i - t i))).
  { replace (sinh (p i - t i)) with (1 * sinh (p i - t i)) by lra.
    apply (is_derive_comp cosh (fun v => v - t i)); [apply is_derive_cosh|]. auto_derive; auto. }
  replace (tanh (p i - t i)) with (sinh (p i - t i) * / cosh (p i - t i)) by reflexivity.
  apply (is_derive_comp ln (fun v => cosh (v - t i))); [|auto].
  apply is_derive_Reals, derivable_pt_lim_ln. auto.
Qed.
Lemma g_cce n t p i : (0 <= i < n)%Z -> 0 < p i + eps9 ->
  partial (std_loss CCE n t) p i (- t i / (p i + eps9)).
Proof.
  intros Hi Hp. replace (- t i / (p i + eps9)) with (-1 * (t i / (p i + eps9))) by (unfold Rdiv; lra).
  apply (partial_ext (fun q => -1 * rsum n (fun j => t j * ln (q j + eps9)))); [intros; cbn; lra|].
  apply (partial_scal (fun q => rsum n (fun j => t j * ln (q j + eps9)))).
  apply (partial_rsum n (fun j v => t j * ln (v + eps9))); auto. auto_derive; auto. field. lra.
Qed.
Lemma g_mae n t p i : (0 <= i < n)%Z -> p i <> t i ->
  partial (std_loss MAE n t) p i (if Rlt_dec (t i) (p i) then 1 else -1).
Proof.
  intros Hi Hne. apply (partial_rsum n (fun j v => Rabs (t j - v))); auto.
  destruct (Rlt_dec (t i) (p i)) as [H|H].
  - apply (piece_gt _ (fun v => v - t i) (t i)); auto; [intros y Hy; rewrite Rabs_left; lra|]. auto_derive; auto; lra.
  - apply (piece_lt _ (fun v => t i - v) (t i)); [intros y Hy; rewrite Rabs_right; lra|lra|]. auto_derive; auto; lra.
Qed.

(** softmax *)
Lemma sumexp_pos n (x : Z -> R) : (0 < n)%Z -> 0 < rsum n (fun j => exp (x j)).
Proof. intros. apply zsum_pos; auto. intros. apply exp_pos. Qed.
Lemma rsum_ind_delta n (c : R) i : (0 <= i < n)%Z -> rsum n (fun j => if (j =? i)%Z then c else 0) = c.
Proof. intros. apply (zsum_delta n i (fun _ => c)). auto. Qed.
Lemma g_sumexp n (x : Z -> R) i : (0 <= i < n)%Z -> partial (fun q => rsum n (fun j => exp (q j))) x i (exp (x i)).
Proof. intros Hi. apply (partial_rsum n (fun _ v => exp v)); auto. apply is_derive_Reals, derivable_pt_lim_exp. Qed.
Lemma ce_softmax_eq n t x : (0 < n)%Z -> cross_entropy n t (std_softmax n x) =
  rsum n t * ln (rsum n (fun j => exp (x j))) - rsum n (fun j => t j * x j).
Proof.
  intros Hn. pose proof (sumexp_pos n x Hn) as Hp. unfold cross_entropy, std_softmax. unfold rsum in *.
  rewrite <- zsum_scal_r, <- zsum_minus, <- zsum_opp. apply zsum_ext. intros j Hj.
  rewrite ln_div, ln_exp by (auto using exp_pos). lra.
Qed.
Lemma g_ce_softmax n t x i : (0 <= i < n)%Z -> rsum n t = 1 ->
  partial (fun q => cross_entropy n t (std_softmax n q)) x i (std_softmax n x i - t i).
Proof.
  intros Hi Ht. pose proof (sumexp_pos n x ltac:(lia)) as Hp.
  apply (partial_ext (fun q => ln (rsum n (fun j => exp (q j))) - rsum n (fun j => t j * q j))).
  { intros q. rewrite ce_softmax_eq by lia. rewrite Ht. lra. }
  unfold partial. apply is_derive_Reals.
  apply (is_derive_minus (K := R_AbsRing) (V := R_NormedModule)).
  - unfold std_softmax, Rdiv.
    apply (is_derive_comp ln (fun v => rsum n (fun j => exp (upd x i v j)))).
    + apply is_derive_Reals. replace (rsum n (fun j => exp (x j))) with (rsum n (fun j => exp (upd x i (x i) j))) in *
        by (apply rsum_ext; intros; now rewrite upd_id).
      apply derivable_pt_lim_ln. auto.
    + apply is_derive_Reals. apply (g_sumexp n x i Hi).
  - apply is_derive_Reals. apply (partial_rsum n (fun j v => t j * v)); auto. auto_derive; auto. lra.
Qed.
