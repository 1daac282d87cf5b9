(** * Differentiation of a convolution (proofs) *)
From Coq Require Import QArith Reals Lra.
From Coquelicot Require Import Coquelicot.
From Verif Require Import Mem Scalar MemSpec MemLemmas Lique LiqueSpec LiqueProofs LiqueProofs2 Linear LinearProofs RSum FunctionSpec FunctionProofs RealSpec
  ActivationProofs LossProofs Layer LayerSpec FCProofs Cells ConvSpec ConvProofs NetSpec Vjp.
Local Open Scope R_scope.

(** ** sums *)
Lemma zfold_rsum n (F : Z -> R) a : zfold n (fun i acc => acc + F i) a = a + rsum n F.
Proof.
  destruct (Z.le_gt_cases n 0) as [Hn|Hn]. { rewrite zfold_neg by lia. unfold rsum. rewrite zsum_neg by lia. lra. }
  assert (H : (0 <= n)%Z) by lia. clear Hn. revert n H. apply natlike_ind; [cbn; unfold rsum, zsum; cbn; lra|].
  intros n Hn IH. unfold Z.succ. rewrite zfold_S, rsum_S, IH by auto. lra.
Qed.
Lemma zfold_rsum' n (g : Z -> R -> R) (F : Z -> R) a : (forall i acc, (0 <= i < n)%Z -> g i acc = acc + F i) -> zfold n g a = a + rsum n F.
Proof. intros H. rewrite <- zfold_rsum. now apply zfold_ext. Qed.
Definition sum3 (a b c : Z) (F : Z -> Z -> Z -> R) : R := rsum a (fun i => rsum b (fun j => rsum c (fun k => F i j k))).
Lemma sum3_ext a b c F G : (forall i j k, (0 <= i < a)%Z -> (0 <= j < b)%Z -> (0 <= k < c)%Z -> F i j k = G i j k) -> sum3 a b c F = sum3 a b c G.
Proof. intros H. apply rsum_ext. intros i Hi. apply rsum_ext. intros j Hj. apply rsum_ext. intros k Hk. now apply H. Qed.
Lemma sum3_plus a b c F G : sum3 a b c (fun i j k => F i j k + G i j k) = sum3 a b c F + sum3 a b c G.
Proof.
  unfold sum3. rewrite <- rsum_plus. apply rsum_ext. intros i _. rewrite <- rsum_plus. apply rsum_ext. intros j _. now rewrite <- rsum_plus.
Qed.
Lemma sum3_scal a b c x F : sum3 a b c (fun i j k => x * F i j k) = x * sum3 a b c F.
Proof. unfold sum3. rewrite <- rsum_scal. apply rsum_ext. intros i _. rewrite <- rsum_scal. apply rsum_ext. intros j _. now rewrite <- rsum_scal. Qed.
Lemma sum3_scal_r a b c x F : sum3 a b c (fun i j k => F i j k * x) = sum3 a b c F * x.
Proof. rewrite Rmult_comm, <- sum3_scal. apply sum3_ext. intros. apply Rmult_comm. Qed.
Lemma sum3_in a b c n F : sum3 a b c (fun i j k => rsum n (F i j k)) = rsum n (fun l => sum3 a b c (fun i j k => F i j k l)).
Proof.
  unfold sum3. rewrite (rsum_ext a _ (fun i => rsum n (fun l => rsum b (fun j => rsum c (fun k => F i j k l))))).
  - apply rsum_swap.
  - intros i _. rewrite (rsum_ext b _ (fun j => rsum n (fun l => rsum c (fun k => F i j k l)))); [apply rsum_swap|].
    intros j _. apply (rsum_swap c n (F i j)).
Qed.
Lemma sum3_swap a b c a' b' c' F : sum3 a b c (fun i j k => sum3 a' b' c' (F i j k)) = sum3 a' b' c' (fun i' j' k' => sum3 a b c (fun i j k => F i j k i' j' k')).
Proof.
  unfold sum3 at 2 3. rewrite sum3_in. apply rsum_ext. intros i' _. rewrite sum3_in. apply rsum_ext. intros j' _. now rewrite sum3_in.
Qed.
(** bring the innermost index to the front *)
Lemma sum3_rot a b c F : sum3 a b c F = sum3 c a b (fun k i j => F i j k).
Proof.
  unfold sum3. rewrite (rsum_ext a (fun i => rsum b (fun j => rsum c (fun k => F i j k))) (fun i => rsum c (fun k => rsum b (fun j => F i j k)))).
  - apply rsum_swap.
  - intros i _. apply (rsum_swap b c (F i)).
Qed.
Lemma rsum_flat3 a b c (f : Z -> R) : (0 <= a)%Z -> (0 <= b)%Z -> (0 <= c)%Z -> rsum (a * b * c) f = sum3 a b c (fun i j k => f (at3 b c i j k)).
Proof.
  intros Ha Hb Hc. rewrite rsum_flat by nia. rewrite rsum_flat by auto. reflexivity.
Qed.
Lemma rsum_pick n k (f : Z -> R) : rsum n (fun i => if (i =? k)%Z then f i else 0) = if ((0 <=? k) && (k <? n))%Z then f k else 0.
Proof.
  destruct ((0 <=? k) && (k <? n))%Z eqn:E.
  - apply andb_prop in E as [E1 E2]. apply Z.leb_le in E1. apply Z.ltb_lt in E2. apply rsum_delta. lia.
  - apply rsum_all0. intros i Hi. destruct (Z.eqb_spec i k) as [->|]; [|reflexivity]. exfalso.
    apply Bool.andb_false_iff in E as [E|E]; [apply Z.leb_gt in E|apply Z.ltb_ge in E]; lia.
Qed.
Lemma rsum_shift n k s (F : Z -> Z -> R) :
  rsum n (fun a => if ((0 <=? a + s) && (a + s <? k))%Z then F a (a + s)%Z else 0) =
  rsum k (fun r => if ((0 <=? r - s) && (r - s <? n))%Z then F (r - s)%Z r else 0).
Proof.
  rewrite (rsum_ext n _ (fun a => rsum k (fun r => if (r =? a + s)%Z then F a r else 0))) by (intros a _; now rewrite (rsum_pick k (a + s) (F a))).
  rewrite (rsum_ext k _ (fun r => rsum n (fun a => if (a =? r - s)%Z then F a r else 0))) by (intros r _; now rewrite (rsum_pick n (r - s) (fun a => F a r))).
  rewrite rsum_swap. apply rsum_ext. intros r _. apply rsum_ext. intros a _.
  destruct (Z.eqb_spec r (a + s)), (Z.eqb_spec a (r - s)); auto; lia.
Qed.
Lemma rsum_rev n f : rsum n (fun i => f (n - 1 - i)%Z) = rsum n f.
Proof.
  destruct (Z.le_gt_cases n 0) as [Hn|Hn]. { unfold rsum. now rewrite !zsum_neg by lia. }
  transitivity (rsum n (fun i => rsum n (fun k => if (k =? n - 1 - i)%Z then f k else 0))).
  - apply rsum_ext. intros i Hi. now rewrite rsum_delta by lia.
  - rewrite rsum_swap. apply rsum_ext. intros k Hk. transitivity (rsum n (fun i => if (i =? n - 1 - k)%Z then f k else 0)); [|now rewrite rsum_delta by lia].
    apply rsum_ext. intros i _. destruct (Z.eqb_spec k (n - 1 - i)), (Z.eqb_spec i (n - 1 - k)); auto; lia.
Qed.
(** terms at the multiples of [v] only *)
Lemma rsum_spread v n (F : Z -> Z -> R) : (0 < v)%Z -> (1 <= n)%Z ->
  rsum (v * (n - 1) + 1) (fun r => if (r mod v =? 0)%Z then F (r / v)%Z r else 0) = rsum n (fun y => F y (v * y)%Z).
Proof.
  intros Hv Hn.
  rewrite (rsum_ext n _ (fun y => rsum (v * (n - 1) + 1) (fun r => if (r =? v * y)%Z then F y r else 0))) by (intros y Hy; now rewrite rsum_delta by nia).
  rewrite rsum_swap. apply rsum_ext. intros r Hr. destruct (Z.eqb_spec (r mod v) 0) as [E|E].
  - pose proof (Z.div_mod r v ltac:(lia)) as Dr.
    assert (0 <= r / v < n)%Z by (split; [apply Z.div_pos; lia|apply Z.div_lt_upper_bound; nia]).
    rewrite <- (rsum_delta n (r / v) (fun y => F y r)) by auto. apply rsum_ext. intros y _.
    destruct (Z.eqb_spec y (r / v)), (Z.eqb_spec r (v * y)); auto; nia.
  - symmetry. apply rsum_all0. intros y _. destruct (Z.eqb_spec r (v * y)) as [->|]; auto. exfalso. apply E. rewrite Z.mul_comm. apply Z.mod_mul. lia.
Qed.

Lemma padded_split h w x c i j : padded h w x c i j =
  if ((0 <=? i) && (i <? h))%Z then (if ((0 <=? j) && (j <? w))%Z then x (at3 h w c i j) else 0) else 0.
Proof. unfold padded, in_box. destruct ((0 <=? i) && (i <? h))%Z, ((0 <=? j) && (j <? w))%Z; reflexivity. Qed.

(** ** the code's folds are the sums *)
Section Folds.
Context (g : geometry).
Lemma conv_val_R B W x f y z : conv_val g B W x f y z = correlate_at g B W x f y z.
Proof.
  unfold conv_val, correlate_at. apply zfold_rsum'. intros i acc Hi. apply zfold_rsum'. intros j acc' Hj. cbv zeta. unfold padded.
  destruct in_box.
  - apply zfold_rsum'. reflexivity.
  - rewrite (rsum_all0 (g_d g)) by (intros; lra). lra.
Qed.
Lemma gradw_val_R b x f c i j old : gradw_val g b x f c i j old =
  old + rsum (spread_h g) (fun r => rsum (spread_w g) (fun q => b f r q * padded (g_h g) (g_w g) x c (i + r - g_p g) (j + q - g_p g))).
Proof.
  unfold gradw_val. apply zfold_rsum'. intros r acc Hi. apply zfold_rsum'. intros q acc' Hj. unfold padded.
  destruct in_box; [reflexivity|cbn; lra].
Qed.
Lemma gradb_val_R b f old : gradb_val g b f old = old + rsum (spread_h g) (fun r => rsum (spread_w g) (fun q => b f r q)).
Proof. unfold gradb_val. apply zfold_rsum'. intros r acc Hi. apply zfold_rsum'. reflexivity. Qed.
Definition boxed (h w : Z) (b : Z -> Z -> Z -> R) (f r q : Z) : R := if in_box h w r q then b f r q else 0.
Lemma cdelta_val_R W b c y z : cdelta_val g W b c y z =
  sum3 (g_fh g) (g_fw g) (g_f g) (fun i j f => W f (at3 (g_fh g) (g_fw g) c i j) * boxed (spread_h g) (spread_w g) b f (y - (i - g_p g)) (z - (j - g_p g))).
Proof.
  unfold cdelta_val. etransitivity.
  - apply (zfold_rsum' (g_fh g) _ (fun i => rsum (g_fw g) (fun j => rsum (g_f g) (fun f =>
      W f (at3 (g_fh g) (g_fw g) c (g_fh g - 1 - i) (g_fw g - 1 - j)) * boxed (spread_h g) (spread_w g) b f (y - (g_fh g - 1 - i - g_p g)) (z - (g_fw g - 1 - j - g_p g)))))).
    intros i acc Hi. apply zfold_rsum'. intros j acc' Hj. cbv zeta. unfold boxed.
    replace (y - (g_fh g - 1 - i - g_p g))%Z with (y + i - (g_fh g - 1) + g_p g)%Z by lia.
    replace (z - (g_fw g - 1 - j - g_p g))%Z with (z + j - (g_fw g - 1) + g_p g)%Z by lia.
    destruct in_box.
    + apply zfold_rsum'. reflexivity.
    + rewrite (rsum_all0 (g_f g)) by (intros; lra). lra.
  - rewrite Rplus_0_l. unfold sum3.
    rewrite (rsum_rev (g_fh g) (fun i => rsum (g_fw g) (fun j => rsum (g_f g) (fun f =>
      W f (at3 (g_fh g) (g_fw g) c i (g_fw g - 1 - j)) * boxed (spread_h g) (spread_w g) b f (y - (i - g_p g)) (z - (g_fw g - 1 - j - g_p g)))))).
    apply rsum_ext. intros i _.
    apply (rsum_rev (g_fw g) (fun j => rsum (g_f g) (fun f =>
      W f (at3 (g_fh g) (g_fw g) c i j) * boxed (spread_h g) (spread_w g) b f (y - (i - g_p g)) (z - (j - g_p g))))).
Qed.
End Folds.

(** ** the chain rule *)
Section Vjp.
Context (g : geometry) (G : geometry_ok g) (d : Z -> Z -> Z -> R) (b : Z -> Z -> Z -> R).
(** [b] is [d] spread by the strides *)
Context (HB : forall f r q, (0 <= f < g_f g)%Z -> (0 <= r < spread_h g)%Z -> (0 <= q < spread_w g)%Z ->
  b f r q = if ((r mod g_vs g =? 0) && (q mod g_hs g =? 0))%Z then d f (r / g_vs g)%Z (q / g_hs g)%Z else 0).
Lemma spread_sum f (h : Z -> Z -> R) : (0 <= f < g_f g)%Z ->
  rsum (spread_h g) (fun r => rsum (spread_w g) (fun q => b f r q * h r q)) =
  rsum (out_h g) (fun y => rsum (out_w g) (fun z => d f y z * h (g_vs g * y)%Z (g_hs g * z)%Z)).
Proof.
  intros Hf. pose proof (out_h_pos g G). pose proof (out_w_pos g G). assert (Hv : (0 < g_vs g)%Z) by apply G. assert (Hh : (0 < g_hs g)%Z) by apply G.
  rewrite <- (rsum_spread (g_vs g) (out_h g) (fun y r => rsum (out_w g) (fun z => d f y z * h r (g_hs g * z)%Z))) by auto.
  apply rsum_ext. intros r Hr.
  rewrite (rsum_ext (spread_w g) _ (fun q => if (r mod g_vs g =? 0)%Z then (if (q mod g_hs g =? 0)%Z then d f (r / g_vs g)%Z (q / g_hs g)%Z * h r q else 0) else 0)).
  2:{ intros q Hq. rewrite HB by auto. destruct (r mod g_vs g =? 0)%Z, (q mod g_hs g =? 0)%Z; cbn [andb]; lra. }
  destruct (r mod g_vs g =? 0)%Z.
  - apply (rsum_spread (g_hs g) (out_w g) (fun z q => d f (r / g_vs g)%Z z * h r q)); auto.
  - now apply rsum_all0.
Qed.
Context (gB : Z -> R) (gW : Z -> Z -> R) (dl : Z -> R) (B : Z -> R) (W : Z -> Z -> R) (x : Z -> R).
Context (EB : forall f, (0 <= f < g_f g)%Z -> gB f = rsum (spread_h g) (fun r => rsum (spread_w g) (fun q => b f r q))).
Context (EW : forall f c i j, (0 <= f < g_f g)%Z -> (0 <= c < g_d g)%Z -> (0 <= i < g_fh g)%Z -> (0 <= j < g_fw g)%Z ->
  gW f (at3 (g_fh g) (g_fw g) c i j) =
  rsum (spread_h g) (fun r => rsum (spread_w g) (fun q => b f r q * padded (g_h g) (g_w g) x c (i + r - g_p g) (j + q - g_p g)))).
Context (ED : forall c y z, (0 <= c < g_d g)%Z -> (0 <= y < g_h g)%Z -> (0 <= z < g_w g)%Z ->
  dl (at3 (g_h g) (g_w g) c y z) =
  sum3 (g_fh g) (g_fw g) (g_f g) (fun i j f => W f (at3 (g_fh g) (g_fw g) c i j) * boxed (spread_h g) (spread_w g) b f (y - (i - g_p g)) (z - (j - g_p g)))).

Definition conv_tangent (B' : Z -> R) (W' : Z -> Z -> R) (x' : Z -> R) (f y z : Z) : R :=
  B' f + sum3 (g_fh g) (g_fw g) (g_d g) (fun i j c =>
    padded (g_h g) (g_w g) x' c (g_vs g * y + i - g_p g) (g_hs g * z + j - g_p g) * W f (at3 (g_fh g) (g_fw g) c i j) +
    padded (g_h g) (g_w g) x c (g_vs g * y + i - g_p g) (g_hs g * z + j - g_p g) * W' f (at3 (g_fh g) (g_fw g) c i j)).

(** the adjoint of a shift with zero padding *)
Lemma shift2 f c i j (x' : Z -> R) :
  rsum (spread_h g) (fun r => rsum (spread_w g) (fun q => b f r q * padded (g_h g) (g_w g) x' c (r + (i - g_p g)) (q + (j - g_p g)))) =
  rsum (g_h g) (fun y => rsum (g_w g) (fun z => boxed (spread_h g) (spread_w g) b f (y - (i - g_p g)) (z - (j - g_p g)) * x' (at3 (g_h g) (g_w g) c y z))).
Proof.
  set (si := (i - g_p g)%Z). set (sj := (j - g_p g)%Z).
  rewrite (rsum_ext (spread_h g) _ (fun r => if ((0 <=? r + si) && (r + si <? g_h g))%Z then
     rsum (g_w g) (fun z => if ((0 <=? z - sj) && (z - sj <? spread_w g))%Z then b f r (z - sj)%Z * x' (at3 (g_h g) (g_w g) c (r + si) z) else 0) else 0)).
  2:{ intros r Hr. rewrite (rsum_ext (spread_w g) _ (fun q => if ((0 <=? r + si) && (r + si <? g_h g))%Z then
        (if ((0 <=? q + sj) && (q + sj <? g_w g))%Z then b f r q * x' (at3 (g_h g) (g_w g) c (r + si) (q + sj)) else 0) else 0)).
      2:{ intros q Hq. rewrite padded_split. destruct ((0 <=? r + si) && (r + si <? g_h g))%Z, ((0 <=? q + sj) && (q + sj <? g_w g))%Z; lra. }
      destruct ((0 <=? r + si) && (r + si <? g_h g))%Z; [|now apply rsum_all0].
      apply (rsum_shift (spread_w g) (g_w g) sj (fun q z => b f r q * x' (at3 (g_h g) (g_w g) c (r + si) z))). }
  rewrite (rsum_shift (spread_h g) (g_h g) si (fun r y => rsum (g_w g) (fun z => if ((0 <=? z - sj) && (z - sj <? spread_w g))%Z then b f r (z - sj)%Z * x' (at3 (g_h g) (g_w g) c y z) else 0))).
  apply rsum_ext. intros y Hy. unfold boxed, in_box. destruct ((0 <=? y - si) && (y - si <? spread_h g))%Z.
  - apply rsum_ext. intros z Hz. destruct ((0 <=? z - sj) && (z - sj <? spread_w g))%Z; cbn [andb]; lra.
  - symmetry. apply rsum_all0. intros z Hz. cbn [andb]. lra.
Qed.

Lemma conv_vjp B' W' x' :
  sum3 (g_f g) (out_h g) (out_w g) (fun f y z => d f y z * conv_tangent B' W' x' f y z) =
  rsum (g_f g) (fun f => gB f * B' f) +
  rsum (g_f g) (fun f => rsum (g_d g * g_fh g * g_fw g) (fun o => gW f o * W' f o)) +
  rsum (g_d g * g_h g * g_w g) (fun o => dl o * x' o).
Proof.
  pose proof G as (?&?&?&?&?&?&?&?&?&?&?&_).
  set (P := fun x' c f i j => rsum (out_h g) (fun y => rsum (out_w g) (fun z => d f y z * padded (g_h g) (g_w g) x' c (g_vs g * y + i - g_p g) (g_hs g * z + j - g_p g)))).
  assert (Split : sum3 (g_f g) (out_h g) (out_w g) (fun f y z => d f y z * conv_tangent B' W' x' f y z) =
     rsum (g_f g) (fun f => rsum (out_h g) (fun y => rsum (out_w g) (fun z => d f y z)) * B' f) +
     rsum (g_f g) (fun f => sum3 (g_d g) (g_fh g) (g_fw g) (fun c i j => P x c f i j * W' f (at3 (g_fh g) (g_fw g) c i j))) +
     rsum (g_f g) (fun f => sum3 (g_d g) (g_fh g) (g_fw g) (fun c i j => P x' c f i j * W f (at3 (g_fh g) (g_fw g) c i j)))).
  { rewrite <- !rsum_plus. unfold sum3 at 1. apply rsum_ext. intros f Hf.
    set (Q := fun (x : Z -> R) (W : Z -> Z -> R) y z => sum3 (g_fh g) (g_fw g) (g_d g) (fun i j c =>
       padded (g_h g) (g_w g) x c (g_vs g * y + i - g_p g) (g_hs g * z + j - g_p g) * W f (at3 (g_fh g) (g_fw g) c i j))).
    assert (EQ : forall x W, rsum (out_h g) (fun y => rsum (out_w g) (fun z => d f y z * Q x W y z)) =
       sum3 (g_d g) (g_fh g) (g_fw g) (fun c i j => P x c f i j * W f (at3 (g_fh g) (g_fw g) c i j))).
    { clear. intros x W. rewrite <- (sum3_rot (g_fh g) (g_fw g) (g_d g) (fun i j c => P x c f i j * W f (at3 (g_fh g) (g_fw g) c i j))).
      transitivity (sum3 1 (out_h g) (out_w g) (fun _ y z => d f y z * Q x W y z)).
      { unfold sum3. change (rsum 1 ?F) with (0 + F 0%Z). lra. }
      unfold Q.
      rewrite (sum3_ext 1 (out_h g) (out_w g) _ (fun _ y z => sum3 (g_fh g) (g_fw g) (g_d g) (fun i j c => d f y z * (padded (g_h g) (g_w g) x c (g_vs g * y + i - g_p g) (g_hs g * z + j - g_p g) * W f (at3 (g_fh g) (g_fw g) c i j)))))
        by (intros; now rewrite sum3_scal).
      rewrite sum3_swap. apply sum3_ext. intros i j c _ _ _. unfold P. rewrite <- rsum_scal_r. unfold sum3. change (rsum 1 ?F) with (0 + F 0%Z).
      rewrite Rplus_0_l. apply rsum_ext. intros y _. rewrite <- rsum_scal_r. apply rsum_ext. intros z _. ring. }
    rewrite <- !EQ, <- rsum_scal_r, <- !rsum_plus. apply rsum_ext. intros y _. rewrite <- rsum_scal_r, <- !rsum_plus. apply rsum_ext. intros z _.
    unfold conv_tangent, Q. rewrite sum3_plus. ring. }
  rewrite Split. clear Split. f_equal; [f_equal|].
  - apply rsum_ext. intros f Hf. f_equal. rewrite EB by auto. symmetry.
    transitivity (rsum (spread_h g) (fun r => rsum (spread_w g) (fun q => b f r q * 1))); [apply rsum_ext; intros; apply rsum_ext; intros; lra|].
    rewrite (spread_sum f (fun _ _ => 1)) by auto. apply rsum_ext; intros; apply rsum_ext; intros; lra.
  - apply rsum_ext. intros f Hf. rewrite rsum_flat3 by auto. apply sum3_ext. intros c i j Hc Hi Hj. f_equal. rewrite EW by auto.
    rewrite (spread_sum f (fun r q => padded (g_h g) (g_w g) x c (i + r - g_p g) (j + q - g_p g))) by auto. unfold P.
    apply rsum_ext; intros; apply rsum_ext; intros. f_equal. f_equal; lia.
  - rewrite rsum_flat3 by auto.
    rewrite (sum3_ext (g_d g) (g_h g) (g_w g) (fun i j k => dl (at3 (g_h g) (g_w g) i j k) * x' (at3 (g_h g) (g_w g) i j k))
      (fun c y z => sum3 (g_fh g) (g_fw g) (g_f g) (fun i j f => W f (at3 (g_fh g) (g_fw g) c i j) * boxed (spread_h g) (spread_w g) b f (y - (i - g_p g)) (z - (j - g_p g)) * x' (at3 (g_h g) (g_w g) c y z)))).
    2:{ intros c y z Hc Hy Hz. rewrite ED by auto. now rewrite sum3_scal_r. }
    rewrite sum3_swap.
    rewrite sum3_rot. unfold sum3 at 2. apply rsum_ext. intros f Hf.
    transitivity (rsum (g_fh g) (fun i => rsum (g_fw g) (fun j => rsum (g_d g) (fun c => P x' c f i j * W f (at3 (g_fh g) (g_fw g) c i j))))).
    { symmetry. apply (sum3_rot (g_fh g) (g_fw g) (g_d g) (fun i j c => P x' c f i j * W f (at3 (g_fh g) (g_fw g) c i j))). }
    apply rsum_ext. intros i Hi. apply rsum_ext. intros j Hj. unfold sum3. apply rsum_ext. intros c Hc.
    unfold P. rewrite <- (spread_sum f (fun r q => padded (g_h g) (g_w g) x' c (r + i - g_p g) (q + j - g_p g))) by auto.
    rewrite (rsum_ext (spread_h g) _ (fun r => rsum (spread_w g) (fun q => b f r q * padded (g_h g) (g_w g) x' c (r + (i - g_p g)) (q + (j - g_p g))))).
    2:{ intros r _. apply rsum_ext. intros q _. f_equal. f_equal; lia. }
    rewrite shift2, <- rsum_scal_r. apply rsum_ext. intros y Hy. rewrite <- rsum_scal_r. apply rsum_ext. intros z Hz. ring.
Qed.

(** curves *)
Lemma padded_curve (cx : R -> Z -> R) (x' : Z -> R) t0 c i j : (0 <= c < g_d g)%Z ->
  (forall o, (0 <= o < g_d g * g_h g * g_w g)%Z -> is_derive (fun t => cx t o) t0 (x' o)) ->
  is_derive (fun t => padded (g_h g) (g_w g) (cx t) c i j) t0 (padded (g_h g) (g_w g) x' c i j).
Proof.
  intros Hc Hx. unfold padded. destruct (in_box (g_h g) (g_w g) i j) eqn:E; [|apply (is_derive_const (K := R_AbsRing) (V := R_NormedModule))].
  apply in_box_spec in E. apply Hx. apply off3_range; tauto.
Qed.
Lemma padded_same (y z : Z -> R) c i j : (0 <= c < g_d g)%Z -> (forall o, (0 <= o < g_d g * g_h g * g_w g)%Z -> y o = z o) ->
  padded (g_h g) (g_w g) y c i j = padded (g_h g) (g_w g) z c i j.
Proof.
  intros Hc H. unfold padded. destruct (in_box (g_h g) (g_w g) i j) eqn:E; [|reflexivity]. apply in_box_spec in E. apply H. apply off3_range; tauto.
Qed.
Lemma correlate_curve (cB : R -> Z -> R) (cW : R -> Z -> Z -> R) (cx : R -> Z -> R) B' W' x' t0 f y z : (0 <= f < g_f g)%Z ->
  (forall f o, (0 <= f < g_f g)%Z -> (0 <= o < g_d g * g_fh g * g_fw g)%Z -> cW t0 f o = W f o) ->
  (forall o, (0 <= o < g_d g * g_h g * g_w g)%Z -> cx t0 o = x o) ->
  (forall f, (0 <= f < g_f g)%Z -> is_derive (fun t => cB t f) t0 (B' f)) ->
  (forall f o, (0 <= f < g_f g)%Z -> (0 <= o < g_d g * g_fh g * g_fw g)%Z -> is_derive (fun t => cW t f o) t0 (W' f o)) ->
  (forall o, (0 <= o < g_d g * g_h g * g_w g)%Z -> is_derive (fun t => cx t o) t0 (x' o)) ->
  is_derive (fun t => correlate_at g (cB t) (cW t) (cx t) f y z) t0 (conv_tangent B' W' x' f y z).
Proof.
  intros Hf CW CX dB dW dx. unfold correlate_at, conv_tangent.
  apply (is_derive_plus (K := R_AbsRing) (V := R_NormedModule)); [auto|]. unfold sum3.
  apply (is_derive_rsum (g_fh g) (fun i t => rsum (g_fw g) (fun j => rsum (g_d g) (fun c =>
    padded (g_h g) (g_w g) (cx t) c (g_vs g * y + i - g_p g) (g_hs g * z + j - g_p g) * cW t f (at3 (g_fh g) (g_fw g) c i j))))). intros i Hi.
  apply (is_derive_rsum (g_fw g) (fun j t => rsum (g_d g) (fun c =>
    padded (g_h g) (g_w g) (cx t) c (g_vs g * y + i - g_p g) (g_hs g * z + j - g_p g) * cW t f (at3 (g_fh g) (g_fw g) c i j)))). intros j Hj.
  apply (is_derive_rsum (g_d g) (fun c t =>
    padded (g_h g) (g_w g) (cx t) c (g_vs g * y + i - g_p g) (g_hs g * z + j - g_p g) * cW t f (at3 (g_fh g) (g_fw g) c i j))). intros c Hc.
  assert (Ho : (0 <= at3 (g_fh g) (g_fw g) c i j < g_d g * g_fh g * g_fw g)%Z) by (apply off3_range; auto).
  evar_last.
  - apply (is_derive_mult (fun t => padded (g_h g) (g_w g) (cx t) c (g_vs g * y + i - g_p g) (g_hs g * z + j - g_p g)) (fun t => cW t f (at3 (g_fh g) (g_fw g) c i j)) t0 (padded (g_h g) (g_w g) x' c (g_vs g * y + i - g_p g) (g_hs g * z + j - g_p g)) (W' f (at3 (g_fh g) (g_fw g) c i j))).
    + apply padded_curve; auto.
    + auto.
    + intros u v. unfold mult; cbn. apply Rmult_comm.
  - unfold plus, mult; cbn. rewrite CW by auto. rewrite (padded_same (cx t0) x) by auto. reflexivity.
Qed.

Lemma weighted_correlate (dv B0 : Z -> R) (W0 : Z -> Z -> R) (x0 : Z -> R) :
  weighted (g_f g * out_h g * out_w g) dv (correlate g B0 W0 x0) =
  sum3 (g_f g) (out_h g) (out_w g) (fun f y z => dv (at3 (out_h g) (out_w g) f y z) * correlate_at g B0 W0 x0 f y z).
Proof.
  pose proof (out_h_pos g G). pose proof (out_w_pos g G). pose proof (proj1 G).
  unfold weighted. rewrite rsum_flat3 by lia. apply sum3_ext. intros f y z Hf Hy Hz. f_equal. unfold correlate.
  destruct (at3_flat (out_h g) (out_w g) f y z Hy Hz) as (-> & -> & ->). reflexivity.
Qed.
Lemma conv_weighted_curve (dv : Z -> R) (cB : R -> Z -> R) (cW : R -> Z -> Z -> R) (cx : R -> Z -> R) B' W' x' t0 :
  (forall f y z, (0 <= f < g_f g)%Z -> (0 <= y < out_h g)%Z -> (0 <= z < out_w g)%Z -> dv (at3 (out_h g) (out_w g) f y z) = d f y z) ->
  (forall f o, (0 <= f < g_f g)%Z -> (0 <= o < g_d g * g_fh g * g_fw g)%Z -> cW t0 f o = W f o) ->
  (forall o, (0 <= o < g_d g * g_h g * g_w g)%Z -> cx t0 o = x o) ->
  (forall f, (0 <= f < g_f g)%Z -> is_derive (fun t => cB t f) t0 (B' f)) ->
  (forall f o, (0 <= f < g_f g)%Z -> (0 <= o < g_d g * g_fh g * g_fw g)%Z -> is_derive (fun t => cW t f o) t0 (W' f o)) ->
  (forall o, (0 <= o < g_d g * g_h g * g_w g)%Z -> is_derive (fun t => cx t o) t0 (x' o)) ->
  is_derive (fun t => weighted (g_f g * out_h g * out_w g) dv (correlate g (cB t) (cW t) (cx t))) t0
    (rsum (g_f g) (fun f => gB f * B' f) +
     rsum (g_f g) (fun f => rsum (g_d g * g_fh g * g_fw g) (fun o => gW f o * W' f o)) +
     rsum (g_d g * g_h g * g_w g) (fun o => dl o * x' o)).
Proof.
  intros Ed CW CX dB dW dx. rewrite <- conv_vjp.
  apply (is_derive_ext (fun t => sum3 (g_f g) (out_h g) (out_w g) (fun f y z => dv (at3 (out_h g) (out_w g) f y z) * correlate_at g (cB t) (cW t) (cx t) f y z))).
  { intros t. symmetry. apply weighted_correlate. }
  unfold sum3.
  apply (is_derive_rsum (g_f g) (fun f t => rsum (out_h g) (fun y => rsum (out_w g) (fun z => dv (at3 (out_h g) (out_w g) f y z) * correlate_at g (cB t) (cW t) (cx t) f y z)))). intros f Hf.
  apply (is_derive_rsum (out_h g) (fun y t => rsum (out_w g) (fun z => dv (at3 (out_h g) (out_w g) f y z) * correlate_at g (cB t) (cW t) (cx t) f y z))). intros y Hy.
  apply (is_derive_rsum (out_w g) (fun z t => dv (at3 (out_h g) (out_w g) f y z) * correlate_at g (cB t) (cW t) (cx t) f y z)). intros z Hz.
  rewrite Ed by auto. apply (is_derive_scal (fun t => correlate_at g (cB t) (cW t) (cx t) f y z)).
  apply correlate_curve; auto.
Qed.
End Vjp.
