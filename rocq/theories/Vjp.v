(** * Differentiation of layers along curves (proofs) *)
From Coq Require Import QArith Reals Lra.
From Coquelicot Require Import Coquelicot.
From Verif Require Import Mem Scalar Functions FunctionSpec LinearProofs RSum RealSpec ActivationProofs LossProofs NetSpec.
From Verif Require Import PropFunctions.
Local Open Scope R_scope.

Lemma rsum_plus n f g : rsum n (fun i => f i + g i) = rsum n f + rsum n g. Proof. apply zsum_plus. Qed.
Lemma rsum_scal n c f : rsum n (fun i => c * f i) = c * rsum n f. Proof. apply zsum_scal. Qed.
Lemma rsum_scal_r n c f : rsum n (fun i => f i * c) = rsum n f * c. Proof. apply zsum_scal_r. Qed.
Lemma rsum_swap n k (f : Z -> Z -> R) : rsum n (fun i => rsum k (f i)) = rsum k (fun j => rsum n (fun i => f i j)).
Proof. apply zsum_swap. Qed.
Lemma rsum_delta n k f : (0 <= k < n)%Z -> rsum n (fun i => if (i =? k)%Z then f i else 0) = f k. Proof. apply zsum_delta. Qed.
Lemma rsum_all0 n f : (forall i, (0 <= i < n)%Z -> f i = 0) -> rsum n f = 0. Proof. apply zsum_all0. Qed.
Lemma rsum_S n f : (0 <= n)%Z -> rsum (n + 1) f = rsum n f + f n. Proof. exact (zsum_S (T := R) (NT := Num_R) n f). Qed.
Lemma rsum_0 f : rsum 0 f = 0. Proof. reflexivity. Qed.
Lemma rsum_add_range n k f : (0 <= n)%Z -> (0 <= k)%Z -> rsum (n + k) f = rsum n f + rsum k (fun i => f (n + i)%Z).
Proof. apply zsum_add_range. Qed.
(** row-major double sum *)
Lemma rsum_flat n k (f : Z -> R) : (0 <= n)%Z -> (0 <= k)%Z -> rsum (n * k) f = rsum n (fun i => rsum k (fun j => f (i * k + j)%Z)).
Proof.
  intros Hn Hk. revert n Hn. apply natlike_ind; [reflexivity|]. intros n Hn IH. unfold Z.succ.
  rewrite rsum_S by auto. rewrite Z.mul_add_distr_r, Z.mul_1_l, rsum_add_range by nia. now rewrite IH.
Qed.

Lemma std_is_scalar a x : std_act a x = scalar_f a x. Proof. symmetry. apply C33_activation_is_textbook. Qed.
Lemma act_derive a z : a <> GELU -> ~ corner a z -> is_derive (std_act a) z (scalar_df a z).
Proof.
  intros Ha Hc. apply (is_derive_ext (scalar_f a)); [intros; symmetry; apply std_is_scalar|].
  apply is_derive_Reals, C33_activation_derivative; auto.
Qed.

(** forward derivative of a dense layer; [D j]: derivative of the activation at pre-activation [j] *)
Definition dense_tangent (D : Z -> R) (n k : Z) (W x B' W' x' : Z -> R) (j : Z) : R :=
  D j * (rsum n (fun i => x' i * W (i * k + j)%Z + x i * W' (i * k + j)%Z) + B' j).
Lemma dense_curve a n k D (B W x : R -> Z -> R) (B' W' x' : Z -> R) t0 j :
  is_derive (std_act a) (dense_pre n k (B t0) (W t0) (x t0) j) (D j) ->
  is_derive (fun t => B t j) t0 (B' j) ->
  (forall i, (0 <= i < n)%Z -> is_derive (fun t => W t (i * k + j)%Z) t0 (W' (i * k + j)%Z)) ->
  (forall i, (0 <= i < n)%Z -> is_derive (fun t => x t i) t0 (x' i)) ->
  is_derive (fun t => dense a n k (B t) (W t) (x t) j) t0 (dense_tangent D n k (W t0) (x t0) B' W' x' j).
Proof.
  intros Ha HB HW Hx. unfold dense, dense_tangent.
  evar_last. { apply (is_derive_comp (std_act a) (fun t => dense_pre n k (B t) (W t) (x t) j)); [exact Ha|].
    unfold dense_pre. apply (is_derive_plus (K := R_AbsRing) (V := R_NormedModule)); [|exact HB].
    apply (is_derive_rsum n (fun i t => x t i * W t (i * k + j)%Z) (fun i => x' i * W t0 (i * k + j)%Z + x t0 i * W' (i * k + j)%Z)).
    intros i Hi. evar_last; [apply (is_derive_mult (fun t => x t i) (fun t => W t (i * k + j)%Z)); [auto|auto|]|].
    - intros u v. unfold mult; cbn. apply Rmult_comm.
    - unfold plus, mult; cbn. lra. }
  unfold scal, plus; cbn. unfold mult; cbn. ring.
Qed.
(** reverse mode *)
Lemma dense_vjp n k (D W x B' W' x' d gB gW dl : Z -> R) : (0 <= n)%Z -> (0 <= k)%Z ->
  (forall j, (0 <= j < k)%Z -> gB j = D j * d j) ->
  (forall i j, (0 <= i < n)%Z -> (0 <= j < k)%Z -> gW (i * k + j)%Z = x i * gB j) ->
  (forall i, (0 <= i < n)%Z -> dl i = rsum k (fun j => W (i * k + j)%Z * gB j)) ->
  rsum k (fun j => d j * dense_tangent D n k W x B' W' x' j) =
  rsum k (fun j => gB j * B' j) + rsum (n * k) (fun o => gW o * W' o) + rsum n (fun i => dl i * x' i).
Proof.
  intros Hn Hk EB EW ED. rewrite rsum_flat by auto.
  rewrite (rsum_ext n (fun i => dl i * x' i) (fun i => rsum k (fun j => W (i * k + j)%Z * gB j * x' i)))
    by (intros i Hi; rewrite ED by auto; now rewrite rsum_scal_r).
  rewrite (rsum_ext n (fun i => rsum k (fun j => gW (i * k + j)%Z * W' (i * k + j)%Z)) (fun i => rsum k (fun j => x i * gB j * W' (i * k + j)%Z)))
    by (intros i Hi; apply rsum_ext; intros j Hj; now rewrite EW).
  rewrite (rsum_swap n k (fun i j => x i * gB j * W' (i * k + j)%Z)), (rsum_swap n k (fun i j => W (i * k + j)%Z * gB j * x' i)).
  rewrite <- !rsum_plus. apply rsum_ext. intros j Hj. rewrite Rplus_assoc, <- rsum_plus.
  rewrite (rsum_ext n (fun i => x i * gB j * W' (i * k + j)%Z + W (i * k + j)%Z * gB j * x' i) (fun i => gB j * (x' i * W (i * k + j)%Z + x i * W' (i * k + j)%Z)))
    by (intros; ring).
  rewrite rsum_scal, EB by auto. unfold dense_tangent. ring.
Qed.

(** moving one component *)
Definition unit_at (i : Z) : Z -> R := fun k => if (k =? i)%Z then 1 else 0.
Lemma upd_curve x i k t0 : is_derive (fun t => upd x i t k) t0 (unit_at i k).
Proof.
  unfold upd, unit_at. destruct (k =? i)%Z; [apply (is_derive_id (K := R_AbsRing))|apply (is_derive_const (K := R_AbsRing) (V := R_NormedModule))].
Qed.
Lemma const_curve (x : Z -> R) k (t0 : R) : is_derive (fun _ : R => x k) t0 0.
Proof. apply (is_derive_const (K := R_AbsRing) (V := R_NormedModule)). Qed.
Lemma upd_id x i k : upd x i (x i) k = x k.
Proof. unfold upd. destruct (Z.eqb_spec k i); congruence. Qed.
Lemma rsum_unit n g i : (0 <= i < n)%Z -> rsum n (fun j => g j * unit_at i j) = g i.
Proof.
  intros Hi. rewrite <- (rsum_delta n i g Hi). apply rsum_ext. intros j Hj. unfold unit_at. destruct (j =? i)%Z; lra.
Qed.
Lemma rsum_zero n g : rsum n (fun j => g j * 0) = 0.
Proof. apply rsum_all0. intros. lra. Qed.

Section Dense.
Context (a : scalar_activation) (n k : Z) (Hn : (0 <= n)%Z) (Hk : (0 <= k)%Z) (D B W x d gB gW dl : Z -> R).
Context (HD : forall j, (0 <= j < k)%Z -> is_derive (std_act a) (dense_pre n k B W x j) (D j)).
Context (EB : forall j, (0 <= j < k)%Z -> gB j = D j * d j).
Context (EW : forall i j, (0 <= i < n)%Z -> (0 <= j < k)%Z -> gW (i * k + j)%Z = x i * gB j).
Context (ED : forall i, (0 <= i < n)%Z -> dl i = rsum k (fun j => W (i * k + j)%Z * gB j)).
Lemma dense_weighted_curve (cB cW cx : R -> Z -> R) (B' W' x' : Z -> R) t0 :
  (forall j, (0 <= j < k)%Z -> cB t0 j = B j) -> (forall o, (0 <= o < n * k)%Z -> cW t0 o = W o) -> (forall i, (0 <= i < n)%Z -> cx t0 i = x i) ->
  (forall j, (0 <= j < k)%Z -> is_derive (fun t => cB t j) t0 (B' j)) ->
  (forall o, (0 <= o < n * k)%Z -> is_derive (fun t => cW t o) t0 (W' o)) ->
  (forall i, (0 <= i < n)%Z -> is_derive (fun t => cx t i) t0 (x' i)) ->
  is_derive (fun t => weighted k d (dense a n k (cB t) (cW t) (cx t))) t0
    (rsum k (fun j => gB j * B' j) + rsum (n * k) (fun o => gW o * W' o) + rsum n (fun i => dl i * x' i)).
Proof.
  intros CB CW CX dB dW dx. rewrite <- (dense_vjp n k D W x B' W' x' d gB gW dl) by auto. unfold weighted.
  assert (R : forall i j, (0 <= i < n)%Z -> (0 <= j < k)%Z -> (0 <= i * k + j < n * k)%Z) by (intros; nia).
  apply (is_derive_rsum k (fun j t => d j * dense a n k (cB t) (cW t) (cx t) j)). intros j Hj.
  evar_last.
  { apply (is_derive_scal (fun t => dense a n k (cB t) (cW t) (cx t) j)).
    apply (dense_curve a n k D cB cW cx B' W' x'); auto.
    replace (dense_pre n k (cB t0) (cW t0) (cx t0) j) with (dense_pre n k B W x j); auto.
    unfold dense_pre. rewrite CB by auto. f_equal. apply rsum_ext. intros i Hi. rewrite CW, CX by auto. reflexivity. }
  f_equal. unfold dense_tangent. f_equal. f_equal. apply rsum_ext. intros i Hi. now rewrite CW, CX by auto.
Qed.
Lemma dense_partial_B j : (0 <= j < k)%Z -> partial (fun B => weighted k d (dense a n k B W x)) B j (gB j).
Proof.
  intros Hj. apply is_derive_Reals. evar_last.
  { apply (dense_weighted_curve (fun t => upd B j t) (fun _ => W) (fun _ => x) (unit_at j) (fun _ => 0) (fun _ => 0)); intros;
    auto using upd_id, upd_curve, const_curve. }
  cbv beta. rewrite rsum_unit, !rsum_zero by auto. lra.
Qed.
Lemma dense_partial_W o : (0 <= o < n * k)%Z -> partial (fun W => weighted k d (dense a n k B W x)) W o (gW o).
Proof.
  intros Hj. apply is_derive_Reals. evar_last.
  { apply (dense_weighted_curve (fun _ => B) (fun t => upd W o t) (fun _ => x) (fun _ => 0) (unit_at o) (fun _ => 0)); intros;
    auto using upd_id, upd_curve, const_curve. }
  cbv beta. rewrite rsum_unit, !rsum_zero by auto. lra.
Qed.
Lemma dense_partial_x i : (0 <= i < n)%Z -> partial (fun x => weighted k d (dense a n k B W x)) x i (dl i).
Proof.
  intros Hj. apply is_derive_Reals. evar_last.
  { apply (dense_weighted_curve (fun _ => B) (fun _ => W) (fun t => upd x i t) (fun _ => 0) (fun _ => 0) (unit_at i)); intros;
    auto using upd_id, upd_curve, const_curve. }
  cbv beta. rewrite rsum_unit, !rsum_zero by auto. lra.
Qed.
End Dense.
