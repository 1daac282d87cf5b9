(** * SoftMax: how it magnifies differences, and how accurate it is in floating-point arithmetic *)
From Coq Require Import ZArith QArith Reals Lra Lia Psatz.
From Flocq Require Import Core BinarySingleNaN.
From Verif Require Import Mem Scalar Functions FunctionSpec RealSpec RSum LinearProofs PoolProofs LossProofs Float FloatSpec FloatLemmas FloatError FloatAct FloatNetSpec PropFloatSoftmax FloatNetAct PropFunctions.
Local Open Scope R_scope.

Lemma vmax_ge n (d : Z -> R) j : (0 <= j < n)%Z -> d j <= vmax n d.
Proof.
  intros Hj. unfold vmax. assert (W : forall i, (0 <= i <= n - 1)%Z -> d i <= zfold (n - 1) (fun i max => if ltb max (d (i + 1)%Z) then d (i + 1)%Z else max) (d 0%Z)); [|apply W; lia].
  apply (zfold_ind _ (n - 1)%Z _ _ (fun k (M : R) => forall i, (0 <= i <= k)%Z -> d i <= M)); [lia|intros i Hi; replace i with 0%Z by lia; lra|].
  intros k M Hk IH i Hi. cbn [ltb Num_R]. unfold Rltb. destruct (Rlt_dec M (d (k + 1)%Z)) as [L|L]; destruct (Z.eq_dec i (k + 1)) as [->|]; try lra; specialize (IH i ltac:(lia)); lra.
Qed.
Lemma vmax_pos n (d : Z -> R) : (0 < n)%Z -> (forall j, (0 <= j < n)%Z -> 0 <= d j) -> 0 <= vmax n d.
Proof. intros Hn H. apply Rle_trans with (d 0%Z); [apply H; lia|apply vmax_ge; lia]. Qed.
Lemma soft_ratio n (z z' : Z -> R) D i : (0 < n)%Z -> (0 <= i < n)%Z -> (forall j, (0 <= j < n)%Z -> Rabs (z j - z' j) <= D) -> std_softmax n z i <= exp (2 * D) * std_softmax n z' i.
Proof.
  intros Hn Hi H. unfold std_softmax. pose proof (sumexp_pos n z Hn) as S. pose proof (sumexp_pos n z' Hn) as S'. cbn beta in *. unfold RealSpec.rsum in *. set (s := zsum n (fun j => exp (z j))) in *. set (s' := zsum n (fun j => exp (z' j))) in *.
  assert (Q : s' <= exp D * s).
  { unfold s, s'. rewrite <- RSum.zsum_scal. apply RSum.zsum_le. intros j Hj. rewrite <- exp_plus. specialize (H j Hj). apply Rabs_le_inv in H. destruct (Req_dec (z' j) (D + z j)) as [->|N]; [lra|]. left. apply exp_increasing. lra. }
  assert (P : exp (z i) <= exp D * exp (z' i)).
  { rewrite <- exp_plus. specialize (H i Hi). apply Rabs_le_inv in H. destruct (Req_dec (z i) (D + z' i)) as [->|N]; [lra|]. left. apply exp_increasing. lra. }
  replace (exp (2 * D)) with (exp D * exp D) by (rewrite <- exp_plus; f_equal; ring). pose proof (exp_pos D). pose proof (exp_pos (z' i)). pose proof (exp_pos (z i)).
  apply Rmult_le_reg_r with (s * s'); [nra|]. replace (exp (z i) / s * (s * s')) with (exp (z i) * s') by (field; lra). replace (exp D * exp D * (exp (z' i) / s') * (s * s')) with ((exp D * exp (z' i)) * (exp D * s)) by (field; lra).
  apply Rmult_le_compat; lra.
Qed.
Lemma soft_le_1 n (z : Z -> R) i : (0 <= i < n)%Z -> 0 <= std_softmax n z i <= 1.
Proof.
  intros Hi. unfold std_softmax. pose proof (sumexp_pos n z ltac:(lia)) as S. cbn beta in S. pose proof (exp_pos (z i)).
  assert (Q : exp (z i) <= RealSpec.rsum n (fun j => exp (z j))).
  { unfold RealSpec.rsum. apply (RSum.zsum_nonneg_term n (fun j => exp (z j))); [exact Hi|]. intros. left. apply exp_pos. }
  split; [unfold Rdiv; apply Rmult_le_pos; [lra|left; now apply Rinv_0_lt_compat]|]. apply Rmult_le_reg_r with (RealSpec.rsum n (fun j => exp (z j))); [exact S|]. unfold Rdiv. rewrite Rmult_assoc, Rinv_l by lra. lra.
Qed.
Lemma lip_soft n (z z' : Z -> R) D i : (0 <= i < n)%Z -> (forall j, (0 <= j < n)%Z -> Rabs (z j - z' j) <= D) -> Rabs (std_softmax n z i - std_softmax n z' i) <= exp (2 * D) - 1.
Proof.
  intros Hi H. assert (D0 : 0 <= D) by (eapply Rle_trans; [apply Rabs_pos|exact (H i Hi)]). pose proof (soft_ratio n z z' D i ltac:(lia) Hi H) as R1.
  assert (R2 : std_softmax n z' i <= exp (2 * D) * std_softmax n z i) by (apply soft_ratio; [lia|exact Hi|]; intros; rewrite Rabs_minus_sym; auto).
  pose proof (soft_le_1 n z i Hi). pose proof (soft_le_1 n z' i Hi). assert (1 <= exp (2 * D)) by (pose proof (exp_1_le (2 * D)); lra). apply Rabs_le. nra.
Qed.

Section Soft.
Context {prec emax : Z} {Hp : Prec_gt_0 prec} {He : Prec_lt_emax prec emax} (P24 : (24 <= prec)%Z) (E64 : (64 <= emax)%Z) (PM : (prec + 3 <= emax)%Z).
Context (lib : libm prec emax) (LO : libm_ok lib) (c : R) (AC : libm_accurate lib c).
Notation fl := (fl prec emax).
Notation rnd := (rnd (prec := prec) (emax := emax)).
Notation fmt := (fmt (prec := prec) (emax := emax)).
Notation clamp := (clamp (emax := emax)).
Notation u := (uro prec).
Notation eta := (eta prec emax).
#[local] Instance NF : Num fl := Num_fl prec emax lib.

Lemma pow_sym n : 2 <= (1 + u) ^ n + (1 - u) ^ n.
Proof.
  pose proof (u_small P24) as U. induction n; cbn [pow]; [lra|]. pose proof (one_le_pow (prec := prec) n). assert (0 <= (1 - u) ^ n <= 1). { split; [apply pow_le; lra|]. pose proof (pow_incr (1 - u) 1 n ltac:(lra)) as Q. rewrite pow1 in Q. exact Q. } nra.
Qed.
(** exp of a rounded difference *)
Lemma exp_rounded t t' d : t <= 0 -> Rabs d <= u -> t' = t * (1 + d) -> Rabs (exp t' - exp t) <= u.
Proof.
  intros T D ->. pose proof (u_small P24) as U. pose proof (Rabs_le_inv _ _ D) as D'. set (y := - t / 2). assert (Y : 0 <= y) by (unfold y; lra).
  assert (G : forall p q, p <= q -> q <= t / 2 -> q - p <= u * - t -> 0 <= exp q - exp p <= u).
  { intros p q L Q S. pose proof (exp_pos q). pose proof (exp_pos p). assert (E : exp p = exp q * exp (p - q)) by (rewrite <- exp_plus; f_equal; ring). pose proof (exp_1_le (p - q)). pose proof (exp_le_1 (p - q) ltac:(lra)).
    assert (A : exp q <= exp (- y)). { destruct (Req_dec q (- y)) as [->|N]; [lra|]. left. apply exp_increasing. unfold y in *. lra. }
    assert (B : 2 * y * exp (- y) <= 1).
    { assert (X : 2 * y <= exp y). { replace (exp y) with (exp (y / 2) * exp (y / 2)) by (rewrite <- exp_plus; f_equal; lra). pose proof (exp_1_le (y / 2)) as X. assert (X2 : (1 + y / 2) * (1 + y / 2) <= exp (y / 2) * exp (y / 2)) by (apply Rmult_le_compat; lra). pose proof (Rle_0_sqr (1 - y / 2)) as X3. unfold Rsqr in X3. lra. }
      pose proof (exp_pos (- y)). assert (Z1 : exp y * exp (- y) = 1) by (rewrite <- exp_plus; replace (y + - y) with 0 by ring; apply exp_0). nra. }
    assert (C : exp q * (q - p) <= exp (- y) * (u * (2 * y))). { apply Rmult_le_compat; try lra. unfold y. lra. } rewrite E. split; [nra|]. nra. }
  destruct (Rle_dec (t * (1 + d)) t) as [L|L].
  - assert (Q : 0 <= exp t - exp (t * (1 + d)) <= u) by (apply G; [exact L|lra|nra]). apply Rabs_le. lra.
  - assert (Q : 0 <= exp (t * (1 + d)) - exp t <= u) by (apply G; [lra|nra|nra]). apply Rabs_le. lra.
Qed.
Lemma soft_acc (x : Z -> fl) n i : (0 <= i < n)%Z -> (1 + u) ^ Z.to_nat n <= 3 / 2 -> (forall j, (0 <= j < n)%Z -> fin (x j)) ->
  Rabs (B2R (act_val SoftMax n x i) - std_softmax n (fun j => B2R (x j)) i) <= softmax_noise (prec := prec) c n.
Proof.
  intros Hi Hw F. assert (Hn : (0 < n)%Z) by lia. destruct (softmax_ok PM lib LO x n Hn F) as [FY _]. destruct (FY i Hi) as [Fy Yr]. clear FY.
  destruct (exps_ok lib LO x n Hn F) as [We (j & Hj & Ej & E1)]. destruct (vmax_ok lib x n Hn F) as [_ Mx]. unfold PropFloatSoftmax.NF, NF in *. cbn [act_val] in *. cbn [mul div one nexp sub Num_fl] in *.
  set (M := vmax (NT := Num_fl prec emax lib) n x) in *. assert (FM : fin M) by (rewrite Ej; auto). clearbody M.
  set (e := fun i => l_exp lib (Bminus mode_NE (x i) M)) in *. change (zsum (H := Num_fl prec emax lib) n (fun j => l_exp lib (Bminus mode_NE (x j) M))) with (zsum (H := Num_fl prec emax lib) n e) in *.
  change (l_exp lib (Bminus mode_NE (x i) M)) with (e i) in *.
  destruct (unit_sum lib e n ltac:(lia) ltac:(lia) We) as (Fs & Bs & Ms & Ls). unfold FloatError.NF in *. set (s := zsum (H := Num_fl prec emax lib) n e) in *.
  assert (S1 : 1 <= B2R s) by (rewrite <- E1; now apply Ms). destruct (recip PM s Fs ltac:(lra)) as (Fr & Br & d & D1 & D2). set (r := Bdiv mode_NE Bone s) in *.
  pose proof (u_small P24) as U. pose proof (eta_small (prec := prec) E64) as T. pose proof (c_pos lib c AC) as C.
  assert (Fe : forall k, (0 <= k < n)%Z -> fin (e k) /\ 0 <= B2R (e k) <= 1). { intros k Hk. pose proof (We k Hk) as W. pose proof (unit_fin _ W) as Q. split; [exact Q|now apply within_B2R]. }
  (* the numerators *)
  set (E := fun k => exp (B2R (x k) + - B2R M)). set (dl := c + 2 * u).
  assert (A : forall k, (0 <= k < n)%Z -> Rabs (B2R (e k) - E k) <= dl).
  { intros k Hk. specialize (Mx k Hk). destruct (val_sub _ _ (F k Hk) FM) as [N V]. set (t := Bminus mode_NE (x k) M) in *. unfold E. set (tr := B2R (x k) - B2R M) in *. assert (Htr : tr <= 0) by (unfold tr; lra). change (B2R (x k) + - B2R M) with tr.
    destruct (split_num t N) as [Ft|[It|It]].
    - pose proof (fin_rnd _ _ N V Ft) as Et. destruct (rnd_plus_err (prec := prec) (emax := emax) (B2R (x k)) (- B2R M) (fmt_B2R _)) as (g & G1 & G2); [apply fmt_opp, fmt_B2R|].
      change (B2R (x k) + - B2R M) with tr in G2. rewrite G2 in Et. pose proof (exp_rounded tr (B2R t) g Htr G1 Et) as X. pose proof (a_exp lib c AC t Ft (proj1 (Fe k Hk))) as Y. change (l_exp lib t) with (e k) in Y.
      assert (Z1 : exp (B2R t) <= 1). { apply exp_le_1. rewrite Et. apply Rabs_le_inv in G1. nra. } pose proof (exp_pos (B2R t)).
      replace (B2R (e k) - exp tr) with (B2R (e k) - exp (B2R t) + (exp (B2R t) - exp tr)) by ring. eapply Rle_trans; [apply Rabs_triang|]. unfold dl. nra.
    - assert (Ek : e k = B754_zero false) by (unfold e; fold t; rewrite It; apply (a_exp_minf lib c AC)). rewrite Ek. cbn [B2R]. rewrite Rminus_0_l, Rabs_Ropp, Rabs_pos_eq by (left; apply exp_pos).
      rewrite It in V. cbn [val] in V. assert (Q : tr <= - (/ u)).
      { destruct (Rle_dec tr (- (/ u))) as [L|L]; [exact L|]. exfalso. assert (Fu : fmt (- / u)). { apply fmt_opp. unfold uro. rewrite <- bpow_opp. apply fmt_bpow. lia. }
        assert (Iu : 0 < / u) by (apply Rinv_0_lt_compat; lra). assert (Bu : / u < big emax). { unfold uro, big. rewrite <- bpow_opp. apply bpow_lt. lia. }
        pose proof (clamp_rnd (prec := prec) (emax := emax) (- / u) 0 tr Fu (fmt_0 (prec := prec)) ltac:(lra) ltac:(pose proof (big_pos (emax := emax)); lra) ltac:(lra)) as K. rewrite <- V in K. lra. }
      assert (X : exp tr <= u).
      { assert (Z1 : exp tr * exp (- tr) = 1) by (rewrite <- exp_plus; replace (tr + - tr) with 0 by ring; apply exp_0). pose proof (exp_1_le (- tr)). pose proof (exp_pos tr). assert (I : u * / u = 1) by (field; lra).
        apply Rmult_le_reg_r with (/ u); [apply Rinv_0_lt_compat; lra|]. rewrite I. nra. } unfold dl. lra.
    - exfalso. rewrite It in V. cbn [val] in V. pose proof (big_gt_1 (prec := prec) (emax := emax)) as B1.
      assert (K : clamp (rnd tr) <= clamp (rnd 0)) by (apply clamp_le, rnd_le; exact Htr). rewrite rnd_0, (clamp_id 0) in K by lra. lra. }
  (* the sums *)
  set (S := RealSpec.rsum n E). set (s' := RealSpec.rsum n (fun k => B2R (e k))).
  assert (SS : Rabs (s' - S) <= IZR n * dl).
  { unfold s', S, RealSpec.rsum. rewrite <- RSum.zsum_minus. eapply Rle_trans; [apply (rsum_abs_le n (fun k => B2R (e k) - E k) ltac:(lia))|]. rewrite <- RSum.zsum_const by lia. now apply RSum.zsum_le. }
  assert (PE : forall k, 0 < E k) by (intros; apply exp_pos).
  assert (S2 : 1 <= S). { apply Rle_trans with (E j). { unfold E. rewrite Ej. replace (_ + _) with 0 by ring. rewrite exp_0. lra. } apply (RSum.zsum_nonneg_term n E); [exact Hj|]. intros. left. apply PE. }
  assert (ES : E i <= S) by (apply (RSum.zsum_nonneg_term n E); [exact Hi|]; intros; left; apply PE).
  set (ep := (1 + u) ^ Z.to_nat n - 1). pose proof (pow_sym (Z.to_nat n)) as PS. pose proof (one_le_pow (prec := prec) (Z.to_nat n)) as PO. assert (EP : 0 <= ep <= / 2) by (unfold ep; lra).
  fold s' in Ls. change (rsum n (fun k => B2R (e k))) with s' in Ls.
  assert (P' : 0 <= s') by (apply (RSum.zsum_nonneg n); intros; apply Fe; assumption).
  assert (L2 : Rabs (B2R s - s') <= ep * s'). { apply Rabs_le. unfold ep. destruct Ls as [Ls1 Ls2]. split; nra. }
  assert (L3 : ep * s' <= 2 * ep * B2R s). { apply Rabs_le_inv in L2. assert (s' <= 2 * B2R s) by nra. nra. }
  assert (SB : Rabs (B2R s - S) <= 2 * ep * B2R s + IZR n * dl). { replace (B2R s - S) with (B2R s - s' + (s' - S)) by ring. eapply Rle_trans; [apply Rabs_triang|]. lra. }
  (* the quotients *)
  assert (Std : std_softmax n (fun k => B2R (x k)) i = E i / S).
  { rewrite <- (softmax_shift n (fun k => B2R (x k)) (- B2R M) i Hn). reflexivity. }
  rewrite Std. destruct (mul_fin_inv _ _ Fy) as (_ & _ & Ey). rewrite Ey. destruct (rnd_err (prec := prec) (emax := emax) (B2R (e i) * B2R r)) as (g & h & G & Hh & ->). rewrite D2.
  destruct (Fe i Hi) as [_ Ei]. pose proof (inv_1p (B2R s - 1) ltac:(lra)) as IS. replace (1 + (B2R s - 1)) with (B2R s) in IS by ring.
  replace (B2R (e i) * (/ B2R s * (1 + d)) * (1 + g) + h - E i / S) with (((1 + d) * (1 + g) - 1) * (B2R (e i) * / B2R s) + h + ((B2R (e i) - E i) * / B2R s + E i / S * ((S - B2R s) * / B2R s))) by (field; lra).
  pose proof (two_rel d g D1 G) as T2. assert (Q1 : 0 <= B2R (e i) * / B2R s <= 1) by nra.
  assert (Q2 : 0 <= E i / S <= 1). { unfold Rdiv. pose proof (PE i). assert (0 < / S) by (apply Rinv_0_lt_compat; lra). split; [nra|]. apply Rmult_le_reg_r with S; [lra|]. rewrite Rmult_assoc, Rinv_l by lra. lra. }
  assert (X1 : Rabs (((1 + d) * (1 + g) - 1) * (B2R (e i) * / B2R s)) <= 3 * u). { rewrite Rabs_mult, (Rabs_pos_eq (B2R (e i) * _)) by lra. pose proof (Rabs_pos ((1 + d) * (1 + g) - 1)). nra. }
  assert (X2 : Rabs ((B2R (e i) - E i) * / B2R s) <= dl). { rewrite Rabs_mult, (Rabs_pos_eq (/ _)) by lra. specialize (A i Hi). pose proof (Rabs_pos (B2R (e i) - E i)). nra. }
  assert (N0 : 0 <= IZR n * dl). { apply Rmult_le_pos; [apply IZR_le; lia|unfold dl; lra]. }
  assert (X3 : Rabs (E i / S * ((S - B2R s) * / B2R s)) <= 2 * ep + IZR n * dl).
  { rewrite Rabs_mult, (Rabs_pos_eq (E i / S)) by lra. rewrite Rabs_mult, (Rabs_pos_eq (/ _)), Rabs_minus_sym by lra. pose proof (Rabs_pos (B2R s - S)) as Z0.
    assert (Y : Rabs (B2R s - S) * / B2R s <= 2 * ep + IZR n * dl).
    { apply Rmult_le_reg_r with (B2R s); [lra|]. rewrite Rmult_assoc, Rinv_l, Rmult_1_r by lra. nra. }
    assert (0 <= Rabs (B2R s - S) * / B2R s) by nra. nra. }
  unfold softmax_noise. rewrite plus_IZR. fold ep. fold dl. eapply Rle_trans; [apply Rabs_triang|]. eapply Rle_trans; [apply Rplus_le_compat; apply Rabs_triang|]. lra.
Qed.
End Soft.
