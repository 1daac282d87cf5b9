(** * Slopes of activations: how they magnify differences, and how accurate they are in floating-point arithmetic *)
From Coq Require Import ZArith QArith Reals Lra Lia Psatz.
From Coquelicot Require Import Coquelicot.
From Flocq Require Import Core BinarySingleNaN.
From Verif Require Import Mem Scalar Functions RealSpec ActivationProofs LossProofs LinearProofs Float FloatSpec FloatLemmas FloatError FloatAct FloatLib FloatNetSpec FloatNetAct FloatGradSpec PropFloatAct.
Local Open Scope R_scope.

Lemma sq_diff a b : 0 <= a <= 1 -> 0 <= b <= 1 -> Rabs (a * a - b * b) <= 2 * Rabs (a - b).
Proof.
  intros A B. replace (a * a - b * b) with ((a + b) * (a - b)) by ring. rewrite Rabs_mult, (Rabs_pos_eq (a + b)) by lra.
  apply Rmult_le_compat_r; [apply Rabs_pos|lra].
Qed.
Lemma inv_diff a b : 1 <= a -> 1 <= b -> Rabs (1 / a - 1 / b) <= Rabs (a - b).
Proof.
  intros A B. replace (1 / a - 1 / b) with ((b - a) * (/ a * / b)) by (field; lra). rewrite Rabs_mult, (Rabs_minus_sym b a).
  assert (0 < / a <= 1) by (split; [apply Rinv_0_lt_compat; lra|rewrite <- Rinv_1; apply Rinv_le_contravar; lra]).
  assert (0 < / b <= 1) by (split; [apply Rinv_0_lt_compat; lra|rewrite <- Rinv_1; apply Rinv_le_contravar; lra]).
  rewrite (Rabs_pos_eq (_ * _)) by nra. rewrite <- (Rmult_1_r (Rabs (a - b))) at 2. apply Rmult_le_compat_l; [apply Rabs_pos|nra].
Qed.
Lemma unit_inv a : 1 <= a -> 0 <= 1 / a <= 1.
Proof. intros A. unfold Rdiv. rewrite Rmult_1_l. split; [left; apply Rinv_0_lt_compat; lra|]. rewrite <- Rinv_1. apply Rinv_le_contravar; lra. Qed.
Lemma sech2_tanh x : 1 / cosh x * (1 / cosh x) = 1 - tanh x * tanh x.
Proof.
  pose proof (cosh_ge1 x) as C. unfold tanh. assert (E : cosh x * cosh x - sinh x * sinh x = 1).
  { unfold cosh, sinh. pose proof (exp_plus x (- x)) as H. rewrite Rplus_opp_r, exp_0 in H. nra. }
  apply Rmult_eq_reg_r with (cosh x * cosh x); [|nra]. field_simplify; lra.
Qed.
Lemma lip_sech2 p q : Rabs (1 / cosh p * (1 / cosh p) - 1 / cosh q * (1 / cosh q)) <= 2 * Rabs (p - q).
Proof.
  rewrite !sech2_tanh. replace (1 - tanh p * tanh p - (1 - tanh q * tanh q)) with (- (tanh p + tanh q) * (tanh p - tanh q)) by ring.
  rewrite Rabs_mult, Rabs_Ropp. pose proof (lip_tanh p q) as L. pose proof (tanh_bounds p) as B1. pose proof (tanh_bounds q) as B2.
  apply Rmult_le_compat; try apply Rabs_pos; [apply Rabs_le; lra|lra].
Qed.
Lemma sig_cosh x : / 2 / (cosh x + 1) = 1 / (1 + exp (- x)) * (1 - 1 / (1 + exp (- x))).
Proof.
  unfold cosh. pose proof (exp_pos x) as A. pose proof (exp_pos (- x)) as B. assert (E : exp x = / exp (- x)) by (rewrite <- exp_Ropp; f_equal; ring).
  rewrite E. field. split; [lra|]. nra.
Qed.
Lemma lip_dsig p q : Rabs (/ 2 / (cosh p + 1) - / 2 / (cosh q + 1)) <= / 4 * Rabs (p - q).
Proof.
  rewrite !sig_cosh. assert (L : Rabs (1 / (1 + exp (- p)) - 1 / (1 + exp (- q))) <= / 4 * Rabs (p - q)).
  { pose proof (lip_act Sigmoid p q) as L. cbn [std_act gain] in L. apply L. repeat split; discriminate. }
  assert (G : forall x, 0 <= 1 / (1 + exp (- x)) <= 1) by (intros x; apply unit_inv; pose proof (exp_pos (- x)); lra).
  pose proof (G p) as Gp. pose proof (G q) as Gq. set (a := 1 / (1 + exp (- p))) in *. set (b := 1 / (1 + exp (- q))) in *. clearbody a b.
  replace (a * (1 - a) - b * (1 - b)) with ((1 - a - b) * (a - b)) by ring. rewrite Rabs_mult.
  apply Rle_trans with (1 * Rabs (a - b)); [|lra]. apply Rmult_le_compat_r; [apply Rabs_pos|]. apply Rabs_le. lra.
Qed.
Lemma lit_R (q : Q) (n : Z) (d : positive) : q = (n # d)%Q -> lit (T := R) (Num := Num_R) q = IZR n / IZR (Zpos d).
Proof. intros ->. reflexivity. Qed.
Lemma slope_lip a p q : slope_covered (Functions.Scalar a) -> (forall z, Rmin p q <= z <= Rmax p q -> ~ corner a z) ->
  Rabs (scalar_df (NT := Num_R) a p - scalar_df (NT := Num_R) a q) <= slope_gain a * Rabs (p - q).
Proof.
  intros (N1 & N2 & N3 & N4) NC. destruct a; try congruence; cbn [scalar_df slope_gain corner] in *; unfold gt0; cbn [ltb zero one Num_R] in *.
  - unfold identity_derived. cbn [one Num_R]. rewrite Rminus_eq_0, Rabs_R0. lra.
  - unfold relu_derived, gt0. cbn [ltb zero one Num_R]. unfold Rltb. assert (X : ~ (Rmin p q <= 0 <= Rmax p q)) by (intros X; now apply (NC 0 X)).
    unfold Rmin, Rmax in X. destruct (Rle_dec p q), (Rlt_dec 0 p), (Rlt_dec 0 q); try (rewrite Rminus_eq_0, Rabs_R0; lra); exfalso; lra.
  - unfold elu_derived, gt0. cbn [ltb zero one mul nexp Num_R]. unfold Rltb. assert (X : ~ (Rmin p q <= 0 <= Rmax p q)) by (intros X; now apply (NC 0 X)).
    pose proof (Rabs_pos (p - q)) as Ap. assert (E2 : lit (T := R) (Num := Num_R) (2 # 10) = / 5) by (rewrite (lit_R _ 2 10 eq_refl); lra).
    destruct (Rlt_dec 0 p) as [Lp|Lp], (Rlt_dec 0 q) as [Lq|Lq].
    + rewrite Rminus_eq_0, Rabs_R0. lra.
    + exfalso. unfold Rmin, Rmax in X. destruct (Rle_dec p q); lra.
    + exfalso. unfold Rmin, Rmax in X. destruct (Rle_dec p q); lra.
    + rewrite E2. replace (/ 5 * exp p - / 5 * exp q) with (/ 5 * (exp p - exp q)) by ring. rewrite Rabs_mult, (Rabs_pos_eq (/ 5)) by lra. apply Rmult_le_compat_l; [lra|].
      destruct (Rle_dec p q) as [L|L].
      * pose proof (exp_diff p q L ltac:(lra)). rewrite (Rabs_left1 (exp p - exp q)), (Rabs_left1 (p - q)) by lra. lra.
      * pose proof (exp_diff q p ltac:(lra) ltac:(lra)). rewrite (Rabs_pos_eq (exp p - exp q)), (Rabs_pos_eq (p - q)) by lra. lra.
  - unfold lrelu_derived, gt0. cbn [ltb zero one Num_R]. unfold Rltb. assert (X : ~ (Rmin p q <= 0 <= Rmax p q)) by (intros X; now apply (NC 0 X)).
    unfold Rmin, Rmax in X. destruct (Rle_dec p q), (Rlt_dec 0 p), (Rlt_dec 0 q); try (rewrite Rminus_eq_0, Rabs_R0; lra); exfalso; lra.
  - unfold sigmoid_derived, half. cbn [div add one ncosh Num_R]. rewrite (lit_R _ 1 2 eq_refl). replace (1 / 2) with (/ 2) by lra. apply lip_dsig.
  - unfold tanh_derived. cbn [div mul one ncosh Num_R]. apply lip_sech2.
  - unfold softsign_derived. cbn [div add mul one nabs Num_R]. pose proof (Rabs_pos p) as P0. pose proof (Rabs_pos q) as Q0.
    eapply Rle_trans; [apply sq_diff; apply unit_inv; lra|]. apply Rmult_le_compat_l; [lra|]. eapply Rle_trans; [apply inv_diff; lra|].
    replace (Rabs p + 1 - (Rabs q + 1)) with (Rabs p - Rabs q) by ring. apply Rabs_triang_inv2.
  - unfold mod_relu_derived. cbn [ltb zero one Num_R]. unfold Rltb. assert (X : ~ (Rmin p q <= 0 <= Rmax p q)) by (intros X; apply (NC 0 X); now left).
    assert (Y : ~ (Rmin p q <= 1 <= Rmax p q)) by (intros Y; apply (NC 1 Y); now right).
    unfold Rmin, Rmax in X, Y. destruct (Rle_dec p q), (Rlt_dec p 0), (Rlt_dec q 0), (Rlt_dec 1 p), (Rlt_dec 1 q); cbn [orb]; try (rewrite Rminus_eq_0, Rabs_R0; lra); exfalso; lra.
  - unfold mod_tanh_derived. cbn [ltb zero one mul div ncosh Num_R]. unfold Rltb. assert (X : ~ (Rmin p q <= 0 <= Rmax p q)) by (intros X; now apply (NC 0 X)).
    pose proof (lip_sech2 p q) as L. pose proof (Rabs_pos (p - q)) as Ap. assert (E2 : lit (T := R) (Num := Num_R) (1 # 100) = / 100) by (rewrite (lit_R _ 1 100 eq_refl); lra).
    destruct (Rlt_dec p 0) as [Lp|Lp], (Rlt_dec q 0) as [Lq|Lq].
    + rewrite E2. rewrite <- Rmult_minus_distr_l, Rabs_mult, (Rabs_pos_eq (/ 100)) by lra. pose proof (Rabs_pos (1 / cosh p * (1 / cosh p) - 1 / cosh q * (1 / cosh q))). lra.
    + exfalso. unfold Rmin, Rmax in X. destruct (Rle_dec p q); lra.
    + exfalso. unfold Rmin, Rmax in X. destruct (Rle_dec p q); lra.
    + exact L.
Qed.
Lemma slope_gain_pos a : 0 <= slope_gain a. Proof. destruct a; cbn; lra. Qed.

Section Acc.
Context {prec emax : Z} {Hp : Prec_gt_0 prec} {He : Prec_lt_emax prec emax} (P24 : (24 <= prec)%Z) (E64 : (64 <= emax)%Z) (PM : (prec + 3 <= emax)%Z).
Context (lib : libm prec emax) (LO : libm_ok lib) (c : R) (AC : libm_accurate lib c) (CC : cosh_accurate lib c).
Notation fl := (fl prec emax).
Notation rnd := (rnd (prec := prec) (emax := emax)).
Notation fmt := (fmt (prec := prec) (emax := emax)).
Notation u := (uro prec).
Notation eta := (eta prec emax).
#[local] Instance NF : Num fl := Num_fl prec emax lib.
#[local] Existing Instance fexp_ok.

Lemma big_u : 2 / u <= big emax.
Proof. unfold big, uro, Rdiv. rewrite <- bpow_opp. change 2 with (bpow radix2 1). rewrite <- bpow_plus. apply bpow_le. lia. Qed.
Lemma rnd_unit r : 0 <= r <= 1 -> Rabs (rnd r - r) <= u + eta.
Proof.
  intros R1. destruct (rnd_err (prec := prec) (emax := emax) r) as (d & h & D & H & ->). replace (r * (1 + d) + h - r) with (r * d + h) by ring.
  eapply Rle_trans; [apply Rabs_triang|]. rewrite Rabs_mult, (Rabs_pos_eq r) by lra. pose proof (Rabs_pos d). pose proof (u_pos (prec := prec)). nra.
Qed.
(** the cosine: finite and accurate, or infinite with a huge exact value *)
Lemma cosh_cases x : fin x -> (fin (l_cosh lib x) /\ 1 <= B2R (l_cosh lib x)) \/ (l_cosh lib x = B754_infinity false /\ / u <= cosh (B2R x)).
Proof.
  intros F. destruct (m_cosh_ge_1 lib LO x (fin_num x F)) as [N V]. destruct (split_num _ N) as [Fc|I].
  - left. rewrite fin_val in V by exact Fc. auto.
  - right. assert (I' : l_cosh lib x = B754_infinity false). { destruct I as [I|I]; [|exact I]. rewrite I in V. cbn [val] in V. pose proof (big_pos (emax := emax)). lra. }
    split; [exact I'|]. assert (Nf : ~ fin (l_cosh lib x)) by (rewrite I'; discriminate). pose proof (h_over lib c CC x F Nf). pose proof big_u. unfold Rdiv in *. lra.
Qed.
Lemma sech_acc x : fin x -> let s := Bdiv mode_NE Bone (l_cosh lib x) in fin s /\ 0 <= B2R s <= 1 /\ Rabs (B2R s - 1 / cosh (B2R x)) <= c + (u + eta).
Proof.
  intros F s. pose proof (sech_within (prec := prec) (emax := emax) lib LO x (fin_num x F)) as W. fold s in W.
  pose proof (unit_fin s W) as Fs. split; [exact Fs|]. pose proof (within_B2R _ _ _ Fs W) as Bs. split; [exact Bs|].
  pose proof (cosh_ge1 (B2R x)) as C1. pose proof (a_pos lib c AC) as C0. pose proof (u_small (prec := prec) P24) as U. pose proof (eta_small (prec := prec) E64) as T.
  destruct (cosh_cases x F) as [[Fc C2]|[I C2]].
  - pose proof (h_cosh lib c CC x F Fc) as A. set (h := B2R (l_cosh lib x)) in *.
    destruct (val_div Bone (l_cosh lib x) (fin_one (prec := prec) (emax := emax)) Fc ltac:(fold h; lra)) as [N V]. fold s h in N, V. rewrite (val_one (prec := prec) (emax := emax)) in V.
    rewrite (fin_rnd _ _ N V Fs). pose proof (rnd_unit (1 / h) (unit_inv h C2)) as Q.
    assert (D : Rabs (1 / h - 1 / cosh (B2R x)) <= c).
    { replace (1 / h - 1 / cosh (B2R x)) with (- (h - cosh (B2R x)) * (/ h * / cosh (B2R x))) by (field; lra). rewrite Rabs_mult, Rabs_Ropp.
      assert (I1 : 0 < / h <= 1) by (split; [apply Rinv_0_lt_compat; lra|rewrite <- Rinv_1; apply Rinv_le_contravar; lra]). assert (I2 : 0 < / cosh (B2R x)) by (apply Rinv_0_lt_compat; lra).
      rewrite (Rabs_pos_eq (_ * _)) by nra. apply Rle_trans with (c * cosh (B2R x) * (/ h * / cosh (B2R x))); [apply Rmult_le_compat_r; [nra|exact A]|].
      replace (c * cosh (B2R x) * (/ h * / cosh (B2R x))) with (c * / h) by (field; lra). nra. }
    replace (rnd (1 / h) - 1 / cosh (B2R x)) with (rnd (1 / h) - 1 / h + (1 / h - 1 / cosh (B2R x))) by ring. eapply Rle_trans; [apply Rabs_triang|]. lra.
  - assert (Z0 : B2R s = 0). { unfold s. rewrite I. pose proof (fin_one (prec := prec) (emax := emax)) as F1. unfold fin in F1. destruct (Bone (prec := prec) (emax := emax)); try discriminate F1; reflexivity. }
    rewrite Z0, Rminus_0_l, Rabs_Ropp. assert (X : 1 / cosh (B2R x) <= u). { unfold Rdiv. rewrite Rmult_1_l. replace u with (/ (/ u)) by (field; lra). apply Rinv_le_contravar; [apply Rinv_0_lt_compat; lra|exact C2]. }
    pose proof (unit_inv (cosh (B2R x)) C1). rewrite Rabs_pos_eq by lra. lra.
Qed.
Lemma square_acc (s : fl) (r d : R) : fin s -> 0 <= B2R s <= 1 -> 0 <= r <= 1 -> Rabs (B2R s - r) <= d ->
  fin (Bmult mode_NE s s) /\ 0 <= B2R (Bmult mode_NE s s) <= 1 /\ Rabs (B2R (Bmult mode_NE s s) - r * r) <= 2 * d + (u + eta).
Proof.
  intros F S R1 D. pose proof (big_gt_1 (prec := prec) (emax := emax)) as B1.
  pose proof (mul_within s s 0 1 F F (fmt_0 (prec := prec) (emax := emax)) (fmt_1 (prec := prec) (emax := emax)) ltac:(lra) ltac:(lra) ltac:(nra)) as W.
  pose proof (unit_fin _ W) as Fm. split; [exact Fm|]. split; [now apply within_B2R|]. destruct (mul_fin_inv _ _ Fm) as (_ & _ & ->).
  pose proof (rnd_unit (B2R s * B2R s) ltac:(nra)) as Q. pose proof (sq_diff (B2R s) r S R1) as E.
  replace (rnd (B2R s * B2R s) - r * r) with (rnd (B2R s * B2R s) - B2R s * B2R s + (B2R s * B2R s - r * r)) by ring. eapply Rle_trans; [apply Rabs_triang|]. lra.
Qed.
Lemma slope_acc a (x : fl) : slope_covered (Functions.Scalar a) -> fin x ->
  fin (scalar_df a x) /\ Rabs (B2R (scalar_df a x) - scalar_df (NT := Num_R) a (B2R x)) <= slope_noise (prec := prec) c a.
Proof.
  intros (G1 & G2 & G3 & G4) F. pose proof (fin_num x F) as N. pose proof (fin_val x F) as V. pose proof (u_small (prec := prec) P24) as U. pose proof (eta_small (prec := prec) E64) as T. pose proof (a_pos lib c AC) as C0.
  pose proof (fin_one (prec := prec) (emax := emax)) as F1. pose proof (val_one (prec := prec) (emax := emax)) as V1.
  destruct (lit_001 P24 E64) as [F001 _]. assert (L001 : exists e, Rabs e <= u /\ B2R (fl_lit prec emax (1 # 100)) = / 100 * (1 + e)).
  { destruct (lit_rel P24 E64 1 100 F001) as (e & E1 & E2); [lia|lia|lra|]. exists e. split; [exact E1|]. rewrite E2. f_equal. lra. }
  assert (R001 : lit (T := R) (Num := Num_R) (1 # 100) = / 100) by (rewrite (lit_R _ 1 100 eq_refl); lra).
  assert (D001 : Rabs (B2R (fl_lit prec emax (1 # 100)) - / 100) <= u). { destruct L001 as (e & E1 & ->). replace (/ 100 * (1 + e) - / 100) with (/ 100 * e) by ring. rewrite Rabs_mult, (Rabs_pos_eq (/ 100)) by lra. pose proof (Rabs_pos e). lra. }
  assert (UU : u * u <= u * / 1024) by (apply Rmult_le_compat_l; lra).
  destruct a; try congruence; cbn [scalar_df slope_noise].
  - unfold identity_derived. cbn [one NF Num_fl Num_R]. rewrite V1, Rminus_eq_0, Rabs_R0. split; [exact F1|lra].
  - unfold relu_derived, gt0. cbn [ltb zero one NF Num_fl Num_R]. unfold Rltb. destruct (Bltb (B754_zero false) x) eqn:L.
    + apply val_ltb in L; [|reflexivity|exact N]. rewrite V in L. cbn in L. destruct (Rlt_dec 0 (B2R x)); [|lra]. rewrite V1, Rminus_eq_0, Rabs_R0. split; [exact F1|lra].
    + apply val_ltb_false in L; [|reflexivity|exact N]. rewrite V in L. cbn [val B2R] in L. destruct (Rlt_dec 0 (B2R x)); [lra|]. cbn [B2R]. rewrite Rminus_eq_0, Rabs_R0. split; [reflexivity|lra].
  - unfold elu_derived, gt0. cbn [ltb zero one mul nexp NF Num_fl Num_R]. rewrite (lit_R _ 2 10 eq_refl). unfold Rltb. cbn [lit NF Num_fl]. destruct (Bltb (B754_zero false) x) eqn:L.
    + apply val_ltb in L; [|reflexivity|exact N]. rewrite V in L. cbn in L. destruct (Rlt_dec 0 (B2R x)); [|lra]. rewrite V1, Rminus_eq_0, Rabs_R0. split; [exact F1|lra].
    + apply val_ltb_false in L; [|reflexivity|exact N]. rewrite V in L. cbn [val B2R] in L. destruct (Rlt_dec 0 (B2R x)); [lra|].
      destruct (lit_02 P24 E64) as [F02 _]. destruct (lit_rel P24 E64 2 10 F02) as (e & E1 & E2); [lia|lia|lra|].
      pose proof (m_exp_num lib LO x N) as Ne. pose proof (m_exp_pos lib LO x N) as Pe. pose proof (m_exp_le_1 lib LO x N ltac:(lra)) as Le.
      pose proof (unit_fin (prec := prec) (emax := emax) (l_exp lib x) (conj Ne (conj Pe Le))) as Fe. rewrite fin_val in Pe, Le by exact Fe.
      pose proof (a_exp lib c AC x F Fe) as A. pose proof (exp_le_1 (B2R x) L) as X1. pose proof (exp_pos (B2R x)) as X0.
      pose proof (big_gt_1 (prec := prec) (emax := emax)) as B1. apply Rabs_le_inv in E1.
      pose proof (mul_within (fl_lit prec emax (2 # 10)) (l_exp lib x) 0 1 F02 Fe (fmt_0 (prec := prec) (emax := emax)) (fmt_1 (prec := prec) (emax := emax)) ltac:(lra) ltac:(lra) ltac:(rewrite E2; nra)) as W.
      pose proof (unit_fin _ W) as Fr. split; [exact Fr|].
      pose proof (scaled (fl_lit prec emax (2 # 10)) (2 / 10) e (l_exp lib x) E2 ltac:(now apply Rabs_le) ltac:(lra) Fr) as S.
      set (w := B2R (l_exp lib x)) in *. set (r' := B2R (Bmult _ _ _)) in *. set (M := exp (B2R x)) in *.
      replace (r' - 2 / 10 * M) with (r' - 2 / 10 * w + 2 / 10 * (w - M)) by ring. eapply Rle_trans; [apply Rabs_triang|]. rewrite (Rabs_mult (2 / 10) (w - M)), (Rabs_pos_eq (2 / 10)) by lra.
      rewrite (Rabs_pos_eq w) in S by lra. pose proof (Rabs_pos (w - M)). nra.
  - unfold lrelu_derived, gt0. cbn [ltb zero one NF Num_fl Num_R]. rewrite R001. unfold Rltb. cbn [lit NF Num_fl]. destruct (Bltb (B754_zero false) x) eqn:L.
    + apply val_ltb in L; [|reflexivity|exact N]. rewrite V in L. cbn in L. destruct (Rlt_dec 0 (B2R x)); [|lra]. rewrite V1, Rminus_eq_0, Rabs_R0. split; [exact F1|lra].
    + apply val_ltb_false in L; [|reflexivity|exact N]. rewrite V in L. cbn [val B2R] in L. destruct (Rlt_dec 0 (B2R x)); [lra|]. split; [exact F001|exact D001].
  - assert (Fq : fin (scalar_df (NT := Num_fl prec emax lib) Sigmoid x)) by (apply (scalar_df_spec P24 E64 lib LO Sigmoid x F); exact Logic.I).
    split; [exact Fq|]. cbn [scalar_df] in Fq. unfold sigmoid_derived, half in *. cbn [div add one ncosh NF Num_fl Num_R] in *. rewrite (lit_R _ 1 2 eq_refl). cbn [lit NF Num_fl] in *. destruct (lit_half P24 E64) as [Fh Vh]. pose proof (cosh_ge1 (B2R x)) as C1.
    destruct (cosh_cases x F) as [[Fc C2]|[I C2]].
    + pose proof (quotient P24 PM (fl_lit prec emax (1 # 2)) (l_cosh lib x) Fh Fc ltac:(lra) Fq) as Q. rewrite Vh in Q.
      pose proof (h_cosh lib c CC x F Fc) as A. set (h := B2R (l_cosh lib x)) in *. set (r' := B2R (Bdiv _ _ _)) in *. set (M := cosh (B2R x)) in *.
      assert (I1 : 0 < / (1 + h) <= / 2) by (split; [apply Rinv_0_lt_compat; lra|apply Rinv_le_contravar; lra]). assert (I2 : 0 < / (1 + M) <= / 2) by (split; [apply Rinv_0_lt_compat; lra|apply Rinv_le_contravar; lra]).
      assert (D : Rabs (/ 2 / (1 + h) - / 2 / (1 + M)) <= c).
      { replace (/ 2 / (1 + h) - / 2 / (1 + M)) with (- (h - M) * (/ 2 * (/ (1 + h) * / (1 + M)))) by (field; lra). rewrite Rabs_mult, Rabs_Ropp, (Rabs_pos_eq (/ 2 * _)) by nra.
        apply Rle_trans with (c * M * (/ 2 * (/ (1 + h) * / (1 + M)))); [apply Rmult_le_compat_r; [nra|exact A]|].
        assert (X : M * / (1 + M) <= 1). { apply Rmult_le_reg_r with (1 + M); [lra|]. rewrite Rmult_assoc, Rinv_l by lra. lra. }
        replace (c * M * (/ 2 * (/ (1 + h) * / (1 + M)))) with (c * (/ 2 * / (1 + h) * (M * / (1 + M)))) by ring. rewrite <- (Rmult_1_r c) at 2. apply Rmult_le_compat_l; [lra|].
        assert (Y : 0 <= M * / (1 + M)) by nra. nra. }
      assert (P : Rabs (/ 2 / (1 + h)) <= / 4). { unfold Rdiv. rewrite Rabs_pos_eq by nra. nra. }
      replace (1 / 2 / (M + 1)) with (/ 2 / (1 + M)) by (field; lra). replace (r' - / 2 / (1 + M)) with (r' - / 2 / (1 + h) + (/ 2 / (1 + h) - / 2 / (1 + M))) by ring. eapply Rle_trans; [apply Rabs_triang|].
      assert (3 * u * Rabs (/ 2 / (1 + h)) <= 3 * u * / 4) by (apply Rmult_le_compat_l; lra). lra.
    + rewrite I in *. rewrite (inf_plus_one (prec := prec) (emax := emax)). assert (Z0 : B2R (Bdiv mode_NE (fl_lit prec emax (1 # 2)) (B754_infinity false)) = 0). { unfold fin in Fh. destruct (fl_lit prec emax (1 # 2)); try discriminate Fh; reflexivity. }
      rewrite Z0, Rminus_0_l, Rabs_Ropp. assert (X : / (cosh (B2R x) + 1) <= u). { replace u with (/ (/ u)) by (field; lra). apply Rinv_le_contravar; [apply Rinv_0_lt_compat; lra|lra]. }
      assert (0 < / (cosh (B2R x) + 1)) by (apply Rinv_0_lt_compat; lra). rewrite Rabs_pos_eq; unfold Rdiv; nra.
  - unfold tanh_derived. cbn [div mul one ncosh NF Num_fl Num_R]. destruct (sech_acc x F) as (Fs & Bs & As). destruct (square_acc _ _ _ Fs Bs (unit_inv _ (cosh_ge1 (B2R x))) As) as (Fm & _ & Q).
    split; [exact Fm|]. lra.
  - unfold softsign_derived. cbn [div add mul one nabs NF Num_fl Num_R]. pose proof (fin_abs x F) as Fa. assert (Ea : B2R (Babs x) = Rabs (B2R x)) by apply B2R_Babs. pose proof (Rabs_pos (B2R x)) as Ax.
    set (s := Bdiv mode_NE Bone (Bplus mode_NE (Babs x) Bone)). assert (W : within s 0 1).
    { destruct (plus_one PM (Babs x) Fa ltac:(rewrite Ea; exact Ax)) as (Fp & _). apply (inv_ge1 (prec := prec) (emax := emax)); [now apply fin_num|].
      rewrite fin_val by exact Fp. destruct (add_fin_inv _ _ Fp) as (_ & _ & ->). rewrite <- (rnd_id (prec := prec) (emax := emax) 1) at 1 by apply fmt_1. apply rnd_le. rewrite Ea, V1. lra. }
    pose proof (unit_fin s W) as Fs. pose proof (within_B2R _ _ _ Fs W) as Bs. pose proof (quotient P24 PM Bone (Babs x) F1 Fa ltac:(rewrite Ea; exact Ax) Fs) as Q. fold s in Q. rewrite Ea, V1 in Q.
    pose proof (unit_inv (1 + Rabs (B2R x)) ltac:(lra)) as I1. rewrite (Rabs_pos_eq (1 / _)) in Q by lra.
    replace (Rabs (B2R x) + 1) with (1 + Rabs (B2R x)) by ring.
    destruct (square_acc s (1 / (1 + Rabs (B2R x))) (3 * u + eta) Fs Bs I1) as (Fm & _ & Q2); [nra|]. split; [exact Fm|]. lra.
  - unfold mod_relu_derived. cbn [ltb zero one NF Num_fl Num_R]. rewrite R001. unfold Rltb. cbn [lit NF Num_fl]. destruct (Bltb x (B754_zero false)) eqn:L; cbn [orb].
    + apply val_ltb in L; [|exact N|reflexivity]. rewrite V in L. cbn [val B2R] in L. destruct (Rlt_dec (B2R x) 0); [|lra]. cbn [orb]. split; [exact F001|exact D001].
    + apply val_ltb_false in L; [|exact N|reflexivity]. rewrite V in L. cbn [val B2R] in L. destruct (Rlt_dec (B2R x) 0); [lra|]. cbn [orb]. destruct (Bltb Bone x) eqn:L1.
      * apply val_ltb in L1; [|now apply fin_num|exact N]. rewrite V, (fin_val _ F1), V1 in L1. destruct (Rlt_dec 1 (B2R x)); [|lra]. split; [exact F001|exact D001].
      * apply val_ltb_false in L1; [|now apply fin_num|exact N]. rewrite V, (fin_val _ F1), V1 in L1. destruct (Rlt_dec 1 (B2R x)); [lra|]. rewrite V1, Rminus_eq_0, Rabs_R0. split; [exact F1|lra].
  - unfold mod_tanh_derived. cbn [ltb zero div mul one ncosh NF Num_fl Num_R]. rewrite R001. unfold Rltb. cbn [lit NF Num_fl]. destruct (sech_acc x F) as (Fs & Bs & As).
    destruct (square_acc _ _ _ Fs Bs (unit_inv _ (cosh_ge1 (B2R x))) As) as (Fm & Bm & Q). set (M := 1 / cosh (B2R x) * (1 / cosh (B2R x))) in *. set (w := Bmult mode_NE (Bdiv _ _ _) _) in *. destruct (Bltb x (B754_zero false)) eqn:L.
    + apply val_ltb in L; [|exact N|reflexivity]. rewrite V in L. cbn [val B2R] in L. destruct (Rlt_dec (B2R x) 0); [|lra]. destruct L001 as (e & E1 & E2). pose proof (Rabs_le_inv _ _ E1) as E1'.
      pose proof (big_gt_1 (prec := prec) (emax := emax)) as B1.
      pose proof (mul_within (fl_lit prec emax (1 # 100)) w 0 1 F001 Fm (fmt_0 (prec := prec) (emax := emax)) (fmt_1 (prec := prec) (emax := emax)) ltac:(lra) ltac:(lra) ltac:(rewrite E2; nra)) as W.
      pose proof (unit_fin _ W) as Fr. split; [exact Fr|]. pose proof (scaled (fl_lit prec emax (1 # 100)) (/ 100) e w E2 E1 ltac:(lra) Fr) as S.
      set (r' := B2R (Bmult _ _ w)) in *. replace (r' - / 100 * M) with (r' - / 100 * B2R w + / 100 * (B2R w - M)) by ring. eapply Rle_trans; [apply Rabs_triang|]. rewrite (Rabs_mult (/ 100) (_ - _)), (Rabs_pos_eq (/ 100)) by lra.
      rewrite (Rabs_pos_eq (B2R w)) in S by lra. pose proof (Rabs_pos (B2R w - M)). nra.
    + apply val_ltb_false in L; [|exact N|reflexivity]. rewrite V in L. cbn [val B2R] in L. destruct (Rlt_dec (B2R x) 0); [lra|]. split; [exact Fm|]. lra.
Qed.
End Acc.
