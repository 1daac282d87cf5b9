(** * A correctly rounded math library meets the contract [libm_ok] *)
From Coq Require Import ZArith QArith Reals Lra Lia Psatz Bool.
From Flocq Require Import Core BinarySingleNaN.
From Verif Require Import Scalar Float FloatSpec FloatLemmas ActivationProofs.
Local Open Scope R_scope.

Section Lib.
Context {prec emax : Z} {Hp : Prec_gt_0 prec} {He : Prec_lt_emax prec emax} (P : (8 <= prec)%Z).
Notation fl := (fl prec emax).
Notation rnd := (rnd (prec := prec) (emax := emax)).
Notation fmt := (fmt (prec := prec) (emax := emax)).
Notation clamp := (clamp (emax := emax)).
Notation fl_of := (fl_of (prec := prec) (emax := emax)).
#[local] Existing Instance fexp_ok.
Implicit Types x y : fl.

(** [f] on finite arguments; limits [lo], [hi] at the infinities *)
Definition rounded (f : R -> R) (lo hi : fl) (x : fl) : fl :=
  match x with B754_nan => B754_nan | B754_infinity true => lo | B754_infinity false => hi | _ => fl_of (f (B2R x)) end.
Definition rounded_log (x : fl) : fl :=
  match x with B754_zero _ => B754_infinity true | B754_infinity false => x | B754_finite false _ _ _ => fl_of (ln (B2R x)) | _ => B754_nan end.
Definition rounded_log1p (x : fl) : fl :=
  match x with
  | B754_nan => B754_nan | B754_infinity true => B754_nan | B754_infinity false => x
  | _ => if Rlt_dec (-1) (B2R x) then fl_of (ln (1 + B2R x)) else if Req_EM_T (B2R x) (-1) then B754_infinity true else B754_nan
  end.
Definition cr_lib : libm prec emax := {|
  l_exp := rounded exp (B754_zero false) (B754_infinity false);
  l_expm1 := rounded (fun r => exp r - 1) (Bopp Bone) (B754_infinity false);
  l_log := rounded_log; l_log1p := rounded_log1p;
  l_tanh := rounded tanh (Bopp Bone) Bone;
  l_cosh := rounded cosh (B754_infinity false) (B754_infinity false);
  l_pow := fun x y => fl_of (Rpower (B2R x) (B2R y)) |}.

Lemma PE : (prec < emax)%Z. Proof. exact He. Qed.
Lemma rounded_fin f lo hi x : fin x -> rounded f lo hi x = fl_of (f (B2R x)).
Proof. unfold fin. destruct x as [s|s| |s m e H]; try discriminate; reflexivity. Qed.
Lemma fl_of_within r a b : fmt a -> fmt b -> - big emax <= a -> b <= big emax -> a <= r <= b -> within (fl_of r) a b.
Proof. intros. destruct (val_fl_of (prec := prec) (emax := emax) r) as [N E]. split; [exact N|]. rewrite E. now apply clamp_rnd. Qed.
Lemma split_num (x : fl) : num x -> fin x \/ x = B754_infinity true \/ x = B754_infinity false.
Proof. unfold num, fin. destruct x as [s|[]| |s m e H]; auto; discriminate. Qed.
Lemma opp_one : fin (Bopp Bone : fl) /\ B2R (Bopp Bone : fl) = -1.
Proof. split; [apply fin_opp, fin_one|]. rewrite B2R_Bopp, val_one. lra. Qed.
Lemma ln_le (a b : R) : 0 < a -> a <= b -> ln a <= ln b.
Proof. intros Ha [H|H]; [left; now apply ln_increasing|right; now rewrite H]. Qed.
Lemma ln2_lt_1 : ln 2 < 1.
Proof. rewrite <- (ln_exp 1). apply ln_increasing; [lra|]. pose proof (exp_ineq1 1 ltac:(lra)). lra. Qed.
Lemma ln2_half : / 2 <= ln 2.
Proof.
  assert (E : exp (/ 2) <= 2).
  { assert (H : exp (/ 2) * exp (/ 2) <= 4). { rewrite <- exp_plus. replace (/ 2 + / 2) with 1 by lra. pose proof exp_le_3. lra. } pose proof (exp_pos (/ 2)). nra. }
  rewrite <- (ln_exp (/ 2)). apply ln_le; [apply exp_pos|exact E].
Qed.
Lemma ln2_pos : 0 < ln 2. Proof. rewrite <- ln_1. apply ln_increasing; lra. Qed.
Lemma ln_bpow e : ln (bpow radix2 e) = IZR e * ln 2.
Proof. rewrite bpow_exp, ln_exp. reflexivity. Qed.
Lemma tanh_bounds (x : R) : -1 <= tanh x <= 1.
Proof.
  rewrite tanh_eq. pose proof (exp_pos (2 * x)). assert (0 < / (exp (2 * x) + 1) <= 1).
  { split; [apply Rinv_0_lt_compat; lra|]. rewrite <- Rinv_1. apply Rinv_le_contravar; lra. } unfold Rdiv. lra.
Qed.
(** [|ln r| <= 4 emax] is far from overflow *)
Lemma four_emax : (4 * emax <= 2 ^ (emax - 1))%Z.
Proof.
  pose proof PE. assert (emax - 6 < 2 ^ (emax - 6))%Z by (apply Z.pow_gt_lin_r; lia).
  replace (emax - 1)%Z with (5 + (emax - 6))%Z by lia. rewrite Z.pow_add_r by lia. change (2 ^ 5)%Z with 32%Z. destruct (Z.eq_dec emax 9); [subst; cbn; lia|]. lia.
Qed.
Lemma log_ok r : bpow radix2 (3 - emax - prec) <= r < bpow radix2 (emax + 1) -> fin (fl_of (ln r)).
Proof.
  intros [H1 H2]. pose proof PE as PE. pose proof ln2_lt_1 as L1. pose proof ln2_pos as L0.
  assert (R0 : 0 < r) by (pose proof (bpow_gt_0 radix2 (3 - emax - prec)); lra).
  assert (A : IZR (3 - emax - prec) * ln 2 <= ln r). { rewrite <- ln_bpow. apply ln_le; [apply bpow_gt_0|exact H1]. }
  assert (B : ln r <= IZR (emax + 1) * ln 2). { rewrite <- ln_bpow. apply ln_le; [lra|lra]. }
  assert (E1 : IZR (3 - emax - prec) >= - IZR (4 * emax)). { rewrite <- opp_IZR. apply Rle_ge, IZR_le. lia. }
  assert (E2 : IZR (emax + 1) <= IZR (4 * emax)) by (apply IZR_le; lia).
  assert (E3 : 0 <= IZR (4 * emax)) by (apply IZR_le; lia).
  assert (C : IZR (4 * emax) <= bpow radix2 (emax - 1)). { rewrite <- (IZR_Zpower radix2) by lia. apply IZR_le, four_emax. }
  assert (D : bpow radix2 (emax - 1) < big emax) by (apply bpow_lt; lia).
  apply (within_fin _ (- bpow radix2 (emax - 1)) (bpow radix2 (emax - 1))); [|lra|lra].
  assert (F : fmt (bpow radix2 (emax - 1))) by (apply fmt_bpow; lia).
  apply fl_of_within; auto using fmt_opp; try lra. split; nra.
Qed.
Lemma fl_min x : fin x -> 0 < B2R x -> bpow radix2 (3 - emax - prec) <= B2R x.
Proof.
  intros F H. destruct x as [s|s| |s m e B]; cbn in H; try lra. pose proof (abs_B2R_ge_emin prec emax (B754_finite s m e B) eq_refl) as Q.
  rewrite Rabs_pos_eq in Q by (cbn; lra). exact Q.
Qed.
Lemma one_plus_min x : fin x -> -1 < B2R x -> bpow radix2 (3 - emax - prec) <= 1 + B2R x.
Proof.
  intros F H. pose proof PE as PE. assert (G : fmt (B2R x)) by apply fmt_B2R. apply generic_format_FIX_FLT in G. apply FIX_format_generic in G.
  destruct G as [[mx ex] E1 E2]. cbn in E2. subst ex. rewrite E1 in *. unfold F2R in *. cbn [Fnum Fexp] in *.
  set (b := bpow radix2 (3 - emax - prec)) in *. assert (B0 : 0 < b) by apply bpow_gt_0.
  assert (O : 1 = IZR (2 ^ (emax + prec - 3)) * b).
  { change 2%Z with (radix_val radix2). rewrite IZR_Zpower by lia. unfold b. rewrite <- bpow_plus. replace (emax + prec - 3 + (3 - emax - prec))%Z with 0%Z by lia. reflexivity. }
  change (SpecFloat.emin prec emax) with (3 - emax - prec)%Z in *. fold b in H |- *.
  assert (I : (0 < 2 ^ (emax + prec - 3) + mx)%Z).
  { apply lt_IZR. rewrite plus_IZR. apply Rmult_lt_reg_r with b; [exact B0|]. lra. }
  apply Zlt_le_succ in I. apply IZR_le in I. cbn in I. rewrite plus_IZR in I. nra.
Qed.

Lemma fl_of_le r s : fmt s -> 0 <= s -> r <= s -> val (fl_of r) <= s.
Proof.
  intros F S L. pose proof (big_pos (emax := emax)). rewrite (proj2 (val_fl_of _)). destruct (Rle_dec s (big emax)) as [B|B].
  - replace s with (clamp (rnd s)); [now apply clamp_le, rnd_le|]. rewrite rnd_id by exact F. apply clamp_id. lra.
  - apply Rle_trans with (big emax); [|lra]. unfold FloatLemmas.clamp. apply Rmax_lub; [lra|apply Rmin_l].
Qed.
Lemma ln_bound r k : (0 <= k <= 2 ^ prec)%Z -> bpow radix2 (- k) <= r <= bpow radix2 k -> fin (fl_of (ln r)) -> Rabs (B2R (fl_of (ln r))) <= IZR k.
Proof.
  intros K [H1 H2] F. pose proof ln2_lt_1 as L1. pose proof ln2_pos as L0. pose proof (bpow_gt_0 radix2 (- k)) as B0.
  assert (K0 : 0 <= IZR k) by (apply IZR_le; lia).
  assert (A : - (IZR k * ln 2) <= ln r). { rewrite Ropp_mult_distr_l, <- opp_IZR, <- ln_bpow. now apply ln_le. }
  assert (B : ln r <= IZR k * ln 2). { rewrite <- ln_bpow. apply ln_le; lra. }
  assert (FK : fmt (IZR k)) by (apply fmt_Z; lia). rewrite <- fin_val by exact F. apply Rabs_le.
  destruct (Rle_dec (IZR k) (big emax)) as [C|C].
  - apply (fl_of_within (ln r) (- IZR k) (IZR k)); auto using fmt_opp; try lra. nra.
  - pose proof (val_bound (fl_of (ln r))) as Q. apply Rabs_le_inv in Q. lra.
Qed.
Lemma exp_growth (r : R) k : (0 <= k)%Z -> r <= IZR k -> exp r <= bpow radix2 (2 * k).
Proof.
  intros K L. rewrite bpow_exp. change (IZR radix2) with 2. apply Rle_trans with (exp (IZR k)); [destruct L as [L|L]; [left; now apply exp_increasing|right; now rewrite L]|].
  rewrite mult_IZR. pose proof ln2_half. assert (0 <= IZR k) by (apply IZR_le; lia). assert (L2 : IZR k <= 2 * IZR k * ln 2) by nra. destruct L2 as [L2|L2]; [left; now apply exp_increasing|right; now rewrite <- L2].
Qed.
Lemma cosh_growth (r : R) k : (0 <= k)%Z -> Rabs r <= IZR k -> cosh r <= bpow radix2 (2 * k).
Proof.
  intros K L. apply Rabs_le_inv in L. pose proof (exp_growth r k K ltac:(lra)). pose proof (exp_growth (- r) k K ltac:(lra)). unfold cosh. lra.
Qed.
Lemma cosh_big (r : R) : IZR emax + 1 <= Rabs r -> big emax <= cosh r.
Proof.
  intros L. pose proof PE as PE. pose proof ln2_lt_1. pose proof ln2_pos. assert (0 <= IZR emax) by (apply IZR_le; lia).
  assert (Q : big emax * 2 <= exp (Rabs r)).
  { unfold big. change 2 with (bpow radix2 1). rewrite <- bpow_plus, bpow_exp, plus_IZR. change (IZR radix2) with 2. assert (L2 : (IZR emax + 1) * ln 2 <= Rabs r) by nra. destruct L2 as [L2|L2]; [left; now apply exp_increasing|right; now rewrite L2]. }
  unfold cosh. pose proof (exp_pos r). pose proof (exp_pos (- r)). revert Q. unfold Rabs. destruct (Rcase_abs r); lra.
Qed.
Lemma cr_lib_ok : libm_ok cr_lib.
Proof.
  pose proof PE as PE. pose proof (big_pos (emax := emax)) as BP. pose proof (big_gt_1 (prec := prec) (emax := emax)) as B1.
  pose proof (fmt_0 (prec := prec) (emax := emax)) as F0. pose proof (fmt_1 (prec := prec) (emax := emax)) as F1.
  pose proof (fmt_big (prec := prec) (emax := emax)) as FB.
  assert (FM1 : fmt (-1)) by (replace (-1) with (- (1)) by lra; now apply fmt_opp).
  destruct opp_one as [OF OV].
  constructor; cbn [cr_lib l_exp l_expm1 l_log l_log1p l_tanh l_cosh].
  - intros x N. destruct (split_num x N) as [F|[->| ->]]; try reflexivity. rewrite rounded_fin by exact F. apply val_fl_of.
  - intros x N. destruct (split_num x N) as [F|[->| ->]]; cbn [rounded val]; try (cbn; lra). rewrite rounded_fin by exact F.
    rewrite (proj2 (val_fl_of _)). replace 0 with (clamp (rnd 0)); [apply clamp_le, rnd_le, Rlt_le, exp_pos|]. rewrite rnd_0. apply clamp_id. lra.
  - intros x N L. destruct (split_num x N) as [F|[->| ->]]; cbn [rounded val] in *; try (cbn; lra). rewrite rounded_fin by exact F. rewrite fin_val in L by exact F.
    apply (fl_of_within (exp (B2R x)) 0 1); auto; try lra. split; [apply Rlt_le, exp_pos|]. rewrite <- exp_0. destruct L as [L|L]; [left; now apply exp_increasing|right; now rewrite L].
  - intros x F E. rewrite rounded_fin by exact F. rewrite E, exp_0. apply fl_of_exact; [exact F1|]. rewrite Rabs_R1. exact B1.
  - intros x N L. destruct (split_num x N) as [F|[->| ->]]; cbn [rounded val] in *; try reflexivity.
    + rewrite rounded_fin by exact F. rewrite fin_val in L by exact F. destruct (val_fl_of (prec := prec) (emax := emax) (exp (B2R x))) as [N' E].
      rewrite clamp_up in E.
      * destruct (split_num _ N') as [F'|[E'|E']]; [|rewrite E' in E; cbn in E; lra|exact E']. rewrite fin_val in E by exact F'. pose proof (big_lt _ F'). lra.
      * replace (big emax) with (rnd (big emax)) by (now apply rnd_id). apply rnd_le. unfold big. rewrite bpow_exp. pose proof ln2_lt_1. pose proof ln2_pos.
        assert (0 <= IZR emax) by (apply IZR_le; lia). change (IZR radix2) with 2. assert (IZR emax * ln 2 <= B2R x) by nra. destruct H2 as [H2|H2]; [left; now apply exp_increasing|right; now rewrite H2].
    + exfalso. assert (0 <= IZR emax) by (apply IZR_le; lia). lra.
  - intros x k N K L. destruct (split_num x N) as [F|[->| ->]]; cbn [rounded val] in *.
    + rewrite rounded_fin by exact F. rewrite fin_val in L by exact F. destruct (val_fl_of (prec := prec) (emax := emax) (exp (B2R x))) as [N' E]. rewrite E.
      assert (B4 : exp (B2R x) <= bpow radix2 (2 * k)).
      { rewrite bpow_exp. change (IZR radix2) with 2. apply Rle_trans with (exp (IZR k)); [destruct L as [L|L]; [left; now apply exp_increasing|right; now rewrite L]|].
        rewrite mult_IZR. pose proof ln2_half. assert (0 <= IZR k) by (apply IZR_le; lia). assert (L2 : IZR k <= 2 * IZR k * ln 2) by nra. destruct L2 as [L2|L2]; [left; now apply exp_increasing|right; now rewrite <- L2]. }
      destruct (Z_le_gt_dec (2 * k) emax) as [C|C].
      * assert (bpow radix2 (2 * k) <= big emax) by (apply bpow_le; lia). pose proof (bpow_gt_0 radix2 (2 * k)). assert (FK : fmt (bpow radix2 (2 * k))) by (apply fmt_bpow; lia).
        replace (bpow radix2 (2 * k)) with (clamp (rnd (bpow radix2 (2 * k)))); [now apply clamp_le, rnd_le|]. rewrite rnd_id by exact FK. apply clamp_id. lra.
      * assert (big emax <= bpow radix2 (2 * k)) by (apply bpow_le; lia). apply Rle_trans with (big emax); [|assumption]. unfold FloatLemmas.clamp. apply Rmax_lub; [lra|apply Rmin_l].
    + cbn. apply bpow_ge_0.
    + apply bpow_le. apply Rle_trans with (r1 := IZR emax) in L; [apply le_IZR in L; lia|]. unfold big. rewrite <- (IZR_Zpower radix2) by lia. apply IZR_le. change (radix_val radix2) with 2%Z. apply Z.lt_le_incl, Z.pow_gt_lin_r; lia.
  - intros x N L. destruct (split_num x N) as [F|[->| ->]]; cbn [rounded val] in *.
    + rewrite rounded_fin by exact F. rewrite fin_val in L by exact F. apply fl_of_within; auto; try lra. pose proof (exp_pos (B2R x)). split; [lra|].
      assert (exp (B2R x) <= 1); [|lra]. rewrite <- exp_0. destruct L as [L|L]; [left; now apply exp_increasing|right; now rewrite L].
    + split; [now apply fin_num|]. rewrite fin_val by exact OF. rewrite OV. lra.
    + lra.
  - intros x F H. destruct x as [s|s| |[] m e B]; cbn in H; try lra.
    + exfalso. assert (F2R (Float radix2 (Z.neg m) e) < 0) by now apply F2R_lt_0. lra.
    + cbn [rounded_log]. apply log_ok. split; [apply fl_min; [exact F|exact H]|]. pose proof (big_lt _ F) as Q. assert (big emax < bpow radix2 (emax + 1)) by (apply bpow_lt; lia). lra.
  - reflexivity.
  - reflexivity.
  - intros x F [H H']. destruct x as [s|s| |[] m e B]; cbn in H; try lra.
    + exfalso. assert (F2R (Float radix2 (Z.neg m) e) < 0) by now apply F2R_lt_0. lra.
    + cbn [rounded_log]. set (x := B754_finite false m e B) in *. assert (Fr : fin (fl_of (ln (B2R x)))).
      { apply log_ok. split; [apply fl_min; [exact F|exact H]|]. pose proof (big_lt _ F) as Q. assert (big emax < bpow radix2 (emax + 1)) by (apply bpow_lt; lia). lra. }
      rewrite <- fin_val by exact Fr. rewrite (proj2 (val_fl_of _)). replace 0 with (clamp (rnd 0)); [|rewrite rnd_0; apply clamp_id; lra].
      apply clamp_le, rnd_le. rewrite <- ln_1. apply ln_le; [exact H|exact H'].
  - intros x F H. destruct x as [s|s| |[] m e B]; cbn in H; try lra.
    + exfalso. assert (F2R (Float radix2 (Z.neg m) e) < 0) by now apply F2R_lt_0. lra.
    + cbn [rounded_log]. set (x := B754_finite false m e B) in *. change (1 <= B2R x) in H. assert (Fr : fin (fl_of (ln (B2R x)))).
      { apply log_ok. split; [apply fl_min; [exact F|lra]|]. pose proof (big_lt _ F) as Q. assert (big emax < bpow radix2 (emax + 1)) by (apply bpow_lt; lia). lra. }
      rewrite <- fin_val by exact Fr. rewrite (proj2 (val_fl_of _)). replace 0 with (clamp (rnd 0)); [|rewrite rnd_0; apply clamp_id; lra].
      apply clamp_le, rnd_le. rewrite <- ln_1. apply ln_le; lra.
  - intros x F H. assert (E : rounded_log1p x = fl_of (ln (1 + B2R x))).
    { destruct x as [s|s| |s m e B]; try discriminate F; cbn [rounded_log1p]; destruct (Rlt_dec _ _); try reflexivity; contradiction. }
    rewrite E. apply log_ok. split; [now apply one_plus_min|]. pose proof (big_lt _ F) as Q. unfold big in *. replace (emax + 1)%Z with (1 + emax)%Z by lia. rewrite bpow_plus. change (bpow radix2 1) with 2. lra.
  - intros x F H. destruct x as [s|s| |s m e B]; try discriminate F; cbn [rounded_log1p]; (destruct (Rlt_dec _ _); [lra|]); destruct (Req_EM_T _ _); try reflexivity; contradiction.
  - intros x F [H H']. assert (E : rounded_log1p x = fl_of (ln (1 + B2R x))).
    { destruct x as [s|s| |s m e B]; try discriminate F; cbn [rounded_log1p]; destruct (Rlt_dec _ _); try reflexivity; contradiction. }
    rewrite E. assert (Fr : fin (fl_of (ln (1 + B2R x)))).
    { apply log_ok. split; [now apply one_plus_min|]. pose proof (big_lt _ F) as Q. unfold big in *. replace (emax + 1)%Z with (1 + emax)%Z by lia. rewrite bpow_plus. change (bpow radix2 1) with 2. lra. }
    rewrite <- fin_val by exact Fr. rewrite (proj2 (val_fl_of _)). replace 0 with (clamp (rnd 0)); [|rewrite rnd_0; apply clamp_id; lra].
    apply clamp_le, rnd_le. rewrite <- ln_1. apply ln_le; lra.
  - intros x N. destruct (split_num x N) as [F|[->| ->]]; cbn [rounded].
    + rewrite rounded_fin by exact F. apply fl_of_within; auto; try lra. apply tanh_bounds.
    + split; [now apply fin_num|]. rewrite fin_val by exact OF. rewrite OV. lra.
    + split; [apply fin_num, fin_one|]. rewrite fin_val by apply fin_one. rewrite val_one. lra.
  - intros x N. destruct (split_num x N) as [F|[->| ->]]; cbn [rounded val]; try (split; [reflexivity|lra]). rewrite rounded_fin by exact F.
    destruct (val_fl_of (prec := prec) (emax := emax) (cosh (B2R x))) as [N' E]. split; [exact N'|]. rewrite E. replace 1 with (clamp (rnd 1)) at 1.
    + apply clamp_le, rnd_le, cosh_ge1.
    + rewrite rnd_id by exact F1. apply clamp_id. lra.
  - intros []; reflexivity.
  - intros x k F K H. pose proof (bpow_gt_0 radix2 (- k)). destruct x as [s|s| |[] m e B]; cbn [B2R] in H; try lra.
    + exfalso. assert (F2R (Float radix2 (cond_Zopp true (Z.pos m)) e) < 0) by now apply F2R_lt_0. lra.
    + cbn [rounded_log]. apply ln_bound; [exact K|exact H|]. set (x := B754_finite false m e B) in *. change (bpow radix2 (- k) <= B2R x <= bpow radix2 k) in H. apply log_ok. split; [apply fl_min; [exact F|lra]|]. pose proof (big_lt _ F) as Q. assert (big emax < bpow radix2 (emax + 1)) by (apply bpow_lt; lia). lra.
  - intros x k F K H. pose proof (bpow_gt_0 radix2 (- k)). assert (E : rounded_log1p x = fl_of (ln (1 + B2R x))).
    { destruct x as [s|s| |s m e B]; try discriminate F; cbn [rounded_log1p]; destruct (Rlt_dec _ _) as [|C]; try reflexivity; exfalso; apply C; lra. }
    rewrite E. apply ln_bound; [exact K|exact H|]. apply log_ok. split; [apply one_plus_min; [exact F|lra]|]. pose proof (big_lt _ F) as Q. unfold big in *. replace (emax + 1)%Z with (1 + emax)%Z by lia. rewrite bpow_plus. change (bpow radix2 1) with 2. lra.
  - intros x k F K L. rewrite rounded_fin by exact F. apply fl_of_le; [apply fmt_bpow; lia|apply bpow_ge_0|now apply cosh_growth].
  - intros x N L. destruct (split_num x N) as [F|[->| ->]]; cbn [rounded val] in *; try reflexivity.
    rewrite rounded_fin by exact F. rewrite fin_val in L by exact F. destruct (val_fl_of (prec := prec) (emax := emax) (cosh (B2R x))) as [N' E]. rewrite clamp_up in E.
    + destruct (split_num _ N') as [F'|[E'|E']]; [|rewrite E' in E; cbn in E; lra|exact E']. rewrite fin_val in E by exact F'. pose proof (big_lt _ F'). lra.
    + replace (big emax) with (rnd (big emax)) by (now apply rnd_id). now apply rnd_le, cosh_big.
Qed.
End Lib.
