(** * Activations in IEEE arithmetic *)
From Coq Require Import ZArith QArith Reals Lra Lia Psatz Bool.
From Flocq Require Import Core BinarySingleNaN.
From Verif Require Import Scalar Functions Float FloatSpec FloatLemmas.
Local Open Scope R_scope.

Section Act.
Context {prec emax : Z} {Hp : Prec_gt_0 prec} {He : Prec_lt_emax prec emax} (P24 : (24 <= prec)%Z) (E64 : (64 <= emax)%Z).
Context (lib : libm prec emax) (LO : libm_ok lib).
Notation fl := (fl prec emax).
Notation rnd := (rnd (prec := prec) (emax := emax)).
Notation fmt := (fmt (prec := prec) (emax := emax)).
Notation clamp := (clamp (emax := emax)).
#[local] Instance NF : Num fl := Num_fl prec emax lib.
Implicit Types x y : fl.
Lemma PE : (prec < emax)%Z. Proof. exact He. Qed.
Lemma Bp : 0 < big emax. Proof. apply big_pos. Qed.
Lemma B1 : 1 < big emax. Proof. apply (big_gt_1 (prec := prec)). Qed.
Lemma one_lt_big : 1 < big emax. Proof. exact B1. Qed.
Lemma B64 : bpow radix2 64 <= big emax. Proof. apply bpow_le. exact E64. Qed.
Lemma fmtb e : (-60 <= e)%Z -> fmt (bpow radix2 e). Proof. intros. apply fmt_bpow. pose proof PE. lia. Qed.
Lemma f0 : fmt 0. Proof. apply fmt_0. Qed.
Lemma f1 : fmt 1. Proof. apply fmt_1. Qed.
Lemma fm1 : fmt (-1). Proof. replace (-1) with (- (1)) by lra. apply fmt_opp, fmt_1. Qed.
Lemma fbig : fmt (big emax). Proof. apply fmt_big. Qed.
Lemma fmbig : fmt (- big emax). Proof. apply fmt_opp, fmt_big. Qed.
Hint Resolve f0 f1 fm1 fbig fmbig fmt_opp fmt_valx fmt_B2R : fmtdb.

(** ** literals *)
Lemma lit_val (n : Z) (d : positive) : fmt (IZR n) -> fmt (IZR (Zpos d)) -> Rabs (IZR n) < big emax -> Rabs (IZR (Zpos d)) < big emax ->
  num (fl_lit prec emax (n # d)) /\ val (fl_lit prec emax (n # d)) = clamp (rnd (IZR n / IZR (Zpos d))).
Proof.
  intros F1 F2 A1 A2. unfold fl_lit. cbn [Qnum Qden]. destruct (ofZ_exact n F1 A1) as [G1 V1]. destruct (ofZ_exact (Zpos d) F2 A2) as [G2 V2].
  rewrite <- V1, <- V2 at 1. apply val_div; auto. rewrite V2. apply IZR_neq. discriminate.
Qed.
Lemma lit_bounds (n : Z) (d : positive) (e1 e2 : Z) : (Z.abs n <= 2 ^ 24)%Z -> fmt (IZR (Zpos d)) -> (Zpos d < 2 ^ 60)%Z ->
  (-60 <= e1)%Z -> (e1 <= e2 <= 60)%Z -> bpow radix2 e1 <= IZR n / IZR (Zpos d) <= bpow radix2 e2 ->
  fin (fl_lit prec emax (n # d)) /\ bpow radix2 e1 <= B2R (fl_lit prec emax (n # d)) <= bpow radix2 e2.
Proof.
  intros Hn Hd Hd' H1 H2 H. pose proof PE. pose proof B64 as B.
  assert (K : bpow radix2 60 < bpow radix2 64) by (apply bpow_lt; lia).
  assert (Fn : fmt (IZR n)). { apply fmt_Z. assert (2 ^ 24 <= 2 ^ prec)%Z by (apply Z.pow_le_mono_r; lia). lia. }
  assert (An : Rabs (IZR n) < big emax). { rewrite <- abs_IZR. apply IZR_le in Hn. change (2 ^ 24)%Z with (radix_val radix2 ^ 24)%Z in Hn. rewrite IZR_Zpower in Hn by lia. assert (bpow radix2 24 < bpow radix2 60) by (apply bpow_lt; lia). lra. }
  assert (Ad : Rabs (IZR (Zpos d)) < big emax). { rewrite Rabs_pos_eq by (apply IZR_le; lia). apply IZR_lt in Hd'. change (2 ^ 60)%Z with (radix_val radix2 ^ 60)%Z in Hd'. rewrite IZR_Zpower in Hd' by lia. lra. }
  destruct (lit_val n d Fn Hd An Ad) as [N E]. destruct (rnd_between _ _ _ (fmtb e1 H1) (fmtb e2 ltac:(lia)) H) as [R1 R2].
  assert (U : bpow radix2 e2 <= bpow radix2 60) by (apply bpow_le; lia). pose proof (bpow_gt_0 radix2 e1) as Z0.
  rewrite clamp_id in E by lra. assert (F : fin (fl_lit prec emax (n # d))) by (apply fin_iff; split; [exact N|rewrite E, Rabs_pos_eq; lra]).
  split; [exact F|]. rewrite fin_val in E by exact F. rewrite E. lra.
Qed.
Lemma fmt_small (d : positive) : (Zpos d <= 2 ^ 24)%Z -> fmt (IZR (Zpos d)).
Proof. intros. apply fmt_Z. assert (2 ^ 24 <= 2 ^ prec)%Z by (apply Z.pow_le_mono_r; lia). lia. Qed.
Lemma fmt_e9 : fmt (IZR 1000000000).
Proof.
  change 1000000000%Z with (1953125 * 2 ^ 9)%Z. rewrite mult_IZR. change (2 ^ 9)%Z with (radix_val radix2 ^ 9)%Z. rewrite IZR_Zpower by lia.
  apply fmt_scaled; [assert (2 ^ 24 <= 2 ^ prec)%Z by (apply Z.pow_le_mono_r; lia); lia|pose proof PE; lia].
Qed.
Ltac lit_tac e1 e2 := apply (lit_bounds _ _ e1 e2); [lia| first [apply fmt_small; lia|apply fmt_e9] |lia|lia|lia|cbn [bpow]; cbn -[IZR]; lra].
Lemma lit_half : fin (fl_lit prec emax (1 # 2)) /\ B2R (fl_lit prec emax (1 # 2)) = / 2.
Proof. assert (H : fin (fl_lit prec emax (1 # 2)) /\ bpow radix2 (-1) <= B2R (fl_lit prec emax (1 # 2)) <= bpow radix2 (-1)) by lit_tac (-1)%Z (-1)%Z. destruct H as [F H]. split; [exact F|]. change (bpow radix2 (-1)) with (/ 2) in H. lra. Qed.
Lemma lit_02 : fin (fl_lit prec emax (2 # 10)) /\ / 8 <= B2R (fl_lit prec emax (2 # 10)) <= / 4. Proof. change (/ 8) with (bpow radix2 (-3)). change (/ 4) with (bpow radix2 (-2)). lit_tac (-3)%Z (-2)%Z. Qed.
Lemma lit_001 : fin (fl_lit prec emax (1 # 100)) /\ / 128 <= B2R (fl_lit prec emax (1 # 100)) <= / 64. Proof. change (/ 128) with (bpow radix2 (-7)). change (/ 64) with (bpow radix2 (-6)). lit_tac (-7)%Z (-6)%Z. Qed.
Lemma lit_099 : fin (fl_lit prec emax (99 # 100)) /\ / 2 <= B2R (fl_lit prec emax (99 # 100)) <= 1. Proof. change (/ 2) with (bpow radix2 (-1)). change 1 with (bpow radix2 0). lit_tac (-1)%Z 0%Z. Qed.
Lemma lit_lambda : fin (fl_lit prec emax (1050701 # 1000000)) /\ 1 <= B2R (fl_lit prec emax (1050701 # 1000000)) <= 2. Proof. change 2 with (bpow radix2 1). change 1 with (bpow radix2 0). lit_tac 0%Z 1%Z. Qed.
Lemma lit_beta : fin (fl_lit prec emax (1758099 # 1000000)) /\ 1 <= B2R (fl_lit prec emax (1758099 # 1000000)) <= 2. Proof. change 2 with (bpow radix2 1). change 1 with (bpow radix2 0). lit_tac 0%Z 1%Z. Qed.
Lemma lit_ga : fin (fl_lit prec emax (797885 # 1000000)) /\ / 2 <= B2R (fl_lit prec emax (797885 # 1000000)) <= 1. Proof. change (/ 2) with (bpow radix2 (-1)). change 1 with (bpow radix2 0). lit_tac (-1)%Z 0%Z. Qed.
Lemma lit_gb : fin (fl_lit prec emax (356774 # 10000000)) /\ / 32 <= B2R (fl_lit prec emax (356774 # 10000000)) <= / 16. Proof. change (/ 32) with (bpow radix2 (-5)). change (/ 16) with (bpow radix2 (-4)). lit_tac (-5)%Z (-4)%Z. Qed.
Lemma lit_gc : fin (fl_lit prec emax (535161 # 10000000)) /\ / 32 <= B2R (fl_lit prec emax (535161 # 10000000)) <= / 16. Proof. change (/ 32) with (bpow radix2 (-5)). change (/ 16) with (bpow radix2 (-4)). lit_tac (-5)%Z (-4)%Z. Qed.
Lemma lit_gd : fin (fl_lit prec emax (398942 # 1000000)) /\ / 4 <= B2R (fl_lit prec emax (398942 # 1000000)) <= / 2. Proof. change (/ 4) with (bpow radix2 (-2)). change (/ 2) with (bpow radix2 (-1)). lit_tac (-2)%Z (-1)%Z. Qed.
Lemma lit_eps : fin (fl_lit prec emax (1 # 1000000000)) /\ bpow radix2 (-30) <= B2R (fl_lit prec emax (1 # 1000000000)) <= bpow radix2 (-29). Proof. lit_tac (-30)%Z (-29)%Z. Qed.

(** ** helper facts *)
Notation fone := (Bone : fl).
Lemma split_num x : num x -> fin x \/ x = B754_infinity true \/ x = B754_infinity false.
Proof. unfold num, fin. destruct x as [s|[]| |s m e H]; auto; discriminate. Qed.
Lemma one_fin : fin fone. Proof. apply fin_one. Qed.
Lemma one_val : B2R fone = 1. Proof. apply val_one. Qed.
Lemma gt0_spec x : num x -> (gt0 x = true <-> 0 < val x).
Proof. intros N. unfold gt0. cbn [ltb zero NF Num_fl]. rewrite val_ltb by (exact N || reflexivity). cbn [val]. reflexivity. Qed.
Lemma gt0_false x : num x -> gt0 x = false -> val x <= 0.
Proof. intros N H. apply Rnot_lt_le. intros C. apply gt0_spec in C; [congruence|exact N]. Qed.
Lemma sgn_mul x c : fin x -> fin c -> 0 <= B2R c <= 1 -> within (Bmult mode_NE c x) (Rmin 0 (B2R x)) (Rmax 0 (B2R x)).
Proof.
  intros Fx Fc Hc. pose proof (big_lt x Fx). pose proof Bp. apply mul_within; auto.
  - apply Rmin_case; auto with fmtdb.
  - apply Rmax_case; auto with fmtdb.
  - apply Rmin_case; lra.
  - apply Rmax_case; lra.
  - unfold Rmin, Rmax. destruct (Rle_dec 0 (B2R x)); nra.
Qed.
Lemma minmax_fin x y : fin x -> within y (Rmin 0 (B2R x)) (Rmax 0 (B2R x)) -> fin y.
Proof. intros Fx W. pose proof (big_lt x Fx). pose proof Bp. apply (within_fin _ _ _ W); [apply Rmin_case; lra|apply Rmax_case; lra]. Qed.
(** y + 1 for y >= 0, possibly infinite *)
Lemma add_one y : num y -> 0 <= val y -> num (Bplus mode_NE y fone) /\ 1 <= val (Bplus mode_NE y fone) /\ val y <= val (Bplus mode_NE y fone).
Proof.
  intros N H. pose proof B1. destruct (split_num y N) as [F|[->| ->]].
  - destruct (val_add y fone F one_fin) as [Na Ea]. rewrite one_val in Ea. rewrite (fin_val y F) in *. pose proof (big_lt y F). split; [exact Na|]. rewrite Ea. split.
    + replace 1 with (clamp (rnd 1)) at 1; [apply clamp_le, rnd_le; lra|]. rewrite rnd_id by auto with fmtdb. apply clamp_id. lra.
    + replace (B2R y) with (clamp (rnd (B2R y))) at 1; [apply clamp_le, rnd_le; lra|]. rewrite rnd_id by auto with fmtdb. apply clamp_id. lra.
  - cbn [val] in H. lra.
  - assert (E : Bplus mode_NE (B754_infinity false) fone = B754_infinity false). { pose proof one_fin as O. unfold fin in O. destruct fone as [?|?| |? ? ? ?]; try discriminate O; reflexivity. }
    rewrite E. cbn [val]. split; [reflexivity|]. lra.
Qed.
(** x / y for finite x and y >= 1, possibly infinite *)
Lemma div_ge1 x y : fin x -> num y -> 1 <= val y -> within (Bdiv mode_NE x y) (Rmin 0 (B2R x)) (Rmax 0 (B2R x)).
Proof.
  intros Fx Ny H. pose proof (big_lt x Fx). pose proof Bp. destruct (split_num y Ny) as [F|[->| ->]].
  - rewrite fin_val in H by exact F. apply div_within; auto.
    + lra.
    + apply Rmin_case; auto with fmtdb.
    + apply Rmax_case; auto with fmtdb.
    + apply Rmin_case; lra.
    + apply Rmax_case; lra.
    + assert (I : 0 < / B2R y <= 1). { split; [apply Rinv_0_lt_compat; lra|]. rewrite <- Rinv_1. apply Rinv_le_contravar; lra. }
      unfold Rdiv, Rmin, Rmax. destruct (Rle_dec 0 (B2R x)); nra.
  - cbn [val] in H. lra.
  - assert (E : exists s, Bdiv mode_NE x (B754_infinity false) = B754_zero s). { unfold fin in Fx. destruct x as [?|?| |? ? ? ?]; try discriminate Fx; eexists; reflexivity. }
    destruct E as [s ->]. split; [reflexivity|]. cbn [val]. cbn. unfold Rmin, Rmax. destruct (Rle_dec 0 (B2R x)); lra.
Qed.
Lemma inv_ge1 y : num y -> 1 <= val y -> within (Bdiv mode_NE fone y) 0 1.
Proof. intros N H. pose proof (div_ge1 fone y one_fin N H) as W. rewrite one_val in W. rewrite Rmin_left, Rmax_right in W by lra. exact W. Qed.
Lemma unit_fin x : within x 0 1 -> fin x. Proof. intros W. pose proof B1. apply (within_fin _ _ _ W); lra. Qed.
Lemma sym_fin x : within x (-1) 1 -> fin x. Proof. intros W. pose proof B1. apply (within_fin _ _ _ W); lra. Qed.
Lemma within_B2R x a b : fin x -> within x a b -> a <= B2R x <= b. Proof. intros F [_ H]. now rewrite fin_val in H. Qed.
Lemma square_unit x : within x 0 1 -> within (Bmult mode_NE x x) 0 1.
Proof. intros W. pose proof (unit_fin x W) as F. pose proof (within_B2R _ _ _ F W). pose proof B1. apply mul_within; auto with fmtdb; try lra. nra. Qed.
Lemma mul_num_fin x c : num x -> fin c -> B2R c <> 0 -> num (Bmult mode_NE x c) /\ num (Bmult mode_NE c x).
Proof.
  intros N Fc Nc. destruct (split_num x N) as [F|[->| ->]].
  - split; now apply val_mul.
  - destruct c as [s|s| |s m e B]; try discriminate Fc; [cbn in Nc; lra|]. split; reflexivity.
  - destruct c as [s|s| |s m e B]; try discriminate Fc; [cbn in Nc; lra|]. split; reflexivity.
Qed.
Lemma add_num_fin x y : fin x -> num y -> num (Bplus mode_NE x y).
Proof.
  intros F N. destruct (split_num y N) as [Fy|[->| ->]]; [now apply val_add| |]; unfold fin in F; destruct x as [?|?| |? ? ? ?]; try discriminate F; reflexivity.
Qed.
(** the largest finite number *)
Definition maxf : R := bpow radix2 emax - bpow radix2 (emax - prec).
Lemma maxf_bound x : fin x -> - maxf <= B2R x <= maxf.
Proof. intros _. pose proof (abs_B2R_le_emax_minus_prec prec emax Hp x) as H. unfold maxf. pose proof (Rle_abs (B2R x)). pose proof (Rle_abs (- B2R x)) as H1. rewrite Rabs_Ropp in H1. lra. Qed.
Lemma maxf_scaled k : bpow radix2 (emax - k) - bpow radix2 (emax - prec - k) = IZR (2 ^ prec - 1) * bpow radix2 (emax - prec - k).
Proof.
  rewrite minus_IZR. change (2 ^ prec)%Z with (radix_val radix2 ^ prec)%Z. rewrite IZR_Zpower by lia. rewrite Rmult_minus_distr_r, <- bpow_plus. f_equal; [f_equal; lia|ring].
Qed.
Lemma fmt_maxf : fmt maxf.
Proof. unfold maxf. pose proof (maxf_scaled 0) as E. rewrite !Z.sub_0_r in E. rewrite E. apply fmt_scaled; [assert (0 < 2 ^ prec)%Z by (apply Z.pow_pos_nonneg; lia); lia|pose proof PE; lia]. Qed.
Lemma fmt_half_maxf : fmt (maxf / 2).
Proof.
  replace (maxf / 2) with (bpow radix2 (emax - 1) - bpow radix2 (emax - prec - 1)).
  - rewrite maxf_scaled. apply fmt_scaled; [assert (0 < 2 ^ prec)%Z by (apply Z.pow_pos_nonneg; lia); lia|pose proof PE; lia].
  - unfold maxf. change (emax - 1)%Z with (emax + - (1))%Z. change (emax - prec - 1)%Z with (emax - prec + - (1))%Z. rewrite !(bpow_plus radix2 _ (- (1))). change (bpow radix2 (- (1))) with (/ 2). lra.
Qed.
Lemma maxf_lt : 0 < maxf < big emax.
Proof. unfold maxf, big. pose proof (bpow_gt_0 radix2 (emax - prec)). assert (bpow radix2 (emax - prec) < bpow radix2 emax) by (apply bpow_lt; lia). lra. Qed.

(** ** the activations *)
Ltac fold_ops := cbn [add sub mul div opp zero one nabs ltb nexp nexpm1 nlog ntanh ncosh lit NF Num_fl] in *.
Lemma f_relu x : num x -> num (relu x) /\ 0 <= val (relu x) /\ (fin x -> fin (relu x)).
Proof.
  intros N. unfold relu. destruct (gt0 x) eqn:G.
  - apply gt0_spec in G; [|exact N]. repeat split; auto. lra.
  - cbn. repeat split; auto. lra.
Qed.
Lemma expm1_scaled (c : fl) x : fin c -> 0 <= B2R c <= 2 -> num x -> val x <= 0 -> within (Bmult mode_NE c (l_expm1 lib x)) (-2) 0.
Proof.
  intros Fc Hc N H. pose proof (m_expm1_neg lib LO x N H) as W. assert (F : fin (l_expm1 lib x)). { apply (within_fin _ _ _ W); pose proof B1; lra. }
  pose proof (within_B2R _ _ _ F W). pose proof B64 as B. assert (4 <= bpow radix2 64). { change 4 with (bpow radix2 2). apply bpow_le. lia. }
  apply mul_within; auto with fmtdb; try lra.
  - replace (-2) with (- bpow radix2 1) by (cbn; lra). apply fmt_opp, fmtb. lia.
  - nra.
Qed.
Lemma neg2_fin x : within x (-2) 2 -> fin x.
Proof. intros W. pose proof B64 as B. assert (4 <= bpow radix2 64). { change 4 with (bpow radix2 2). apply bpow_le. lia. } apply (within_fin _ _ _ W); lra. Qed.
Lemma f_elu x : num x -> num (elu x) /\ -2 <= val (elu x) /\ (fin x -> fin (elu x)).
Proof.
  intros N. unfold elu. destruct (gt0 x) eqn:G.
  - apply gt0_spec in G; [|exact N]. repeat split; auto. lra.
  - apply gt0_false in G; [|exact N]. fold_ops. destruct lit_02 as [F L]. pose proof (expm1_scaled _ x F ltac:(lra) N G) as W. split; [apply W|]. split; [apply W|]. intros _. apply neg2_fin. apply (within_weaken _ _ _ _ _ W); lra.
Qed.
Lemma f_lrelu x : num x -> num (lrelu x) /\ (fin x -> fin (lrelu x)).
Proof.
  intros N. unfold lrelu. destruct (gt0 x) eqn:G; [auto|]. fold_ops. destruct lit_001 as [F L]. split.
  - apply mul_num_fin; auto. lra.
  - intros Fx. apply (minmax_fin x); [exact Fx|]. apply sgn_mul; auto. lra.
Qed.
Lemma f_selu x : num x -> num (selu x) /\ -2 <= val (selu x).
Proof.
  intros N. unfold selu. destruct (gt0 x) eqn:G; fold_ops.
  - apply gt0_spec in G; [|exact N]. destruct lit_lambda as [F L]. split; [apply mul_num_fin; auto; lra|].
    destruct (split_num x N) as [Fx|[->| ->]]; cbn [val] in G; try (pose proof Bp; lra).
    + rewrite (proj2 (val_mul _ _ F Fx)). rewrite fin_val in G by exact Fx. assert (0 <= clamp (rnd (B2R (fl_lit prec emax (1050701 # 1000000)) * B2R x))); [|lra].
      replace 0 with (clamp (rnd 0)); [apply clamp_le, rnd_le; nra|]. rewrite rnd_0. apply clamp_id. pose proof Bp. lra.
    + assert (E : Bmult mode_NE (fl_lit prec emax (1050701 # 1000000)) (B754_infinity false) = B754_infinity false).
      { pose proof (sign_le _ F) as S. unfold fin in F. destruct (fl_lit prec emax (1050701 # 1000000)) as [?|?| |[] ? ? ?]; try discriminate F; cbn in L, S; try lra; reflexivity. }
      rewrite E. cbn [val]. pose proof Bp. lra.
  - apply gt0_false in G; [|exact N]. destruct lit_beta as [F L]. pose proof (expm1_scaled _ x F ltac:(lra) N G) as W. split; apply W.
Qed.
Lemma x3_num x : fin x -> num (Bmult mode_NE (Bmult mode_NE x x) x).
Proof.
  intros F. destruct (val_mul x x F F) as [N E]. destruct (Req_dec (B2R x) 0) as [Z|Z].
  - rewrite Z, Rmult_0_l, rnd_0, clamp_id in E by (pose proof Bp; lra). assert (F2 : fin (Bmult mode_NE x x)) by (apply fin_iff; split; [exact N|rewrite E, Rabs_R0; apply Bp]). now apply val_mul.
  - exact (proj1 (mul_num_fin _ x N F Z)).
Qed.
Lemma f_gelu x : fin x -> fin (gelu x).
Proof.
  intros F. unfold gelu, half. fold_ops. destruct lit_half as [Fh Eh]. destruct lit_ga as [Fa La]. destruct lit_gb as [Fb Lb].
  set (a := fl_lit prec emax (797885 # 1000000)) in *. set (b := fl_lit prec emax (356774 # 10000000)) in *. set (h := fl_lit prec emax (1 # 2)) in *.
  assert (Fxa : fin (Bmult mode_NE x a)). { apply (minmax_fin x _ F). destruct (val_mul x a F Fa) as [N E]. split; [exact N|]. rewrite E.
    destruct (sgn_mul x a F Fa ltac:(lra)) as [_ S]. rewrite (proj2 (val_mul a x Fa F)) in S. now rewrite (Rmult_comm (B2R x)). }
  pose proof (x3_num x F) as N3. destruct (mul_num_fin _ b N3 Fb ltac:(lra)) as [N3b _].
  pose proof (add_num_fin _ _ Fxa N3b) as Ny. pose proof (m_tanh_range lib LO _ Ny) as Wt. pose proof (sym_fin _ Wt) as Ft. pose proof (within_B2R _ _ _ Ft Wt) as Bt.
  set (t := l_tanh lib _) in *. pose proof B64 as B. assert (4 <= bpow radix2 64). { change 4 with (bpow radix2 2). apply bpow_le. lia. }
  assert (F2' : fmt 2) by (change 2 with (bpow radix2 1); apply fmtb; lia).
  assert (W2 : within (Bplus mode_NE t fone) 0 2). { apply add_within; auto using one_fin with fmtdb; try lra. rewrite one_val. lra. }
  assert (F2 : fin (Bplus mode_NE t fone)) by (apply (within_fin _ _ _ W2); lra). pose proof (within_B2R _ _ _ F2 W2) as B2.
  pose proof (maxf_bound x F) as M. pose proof maxf_lt as ML. pose proof fmt_half_maxf as FH. pose proof fmt_maxf as FM.
  assert (W3 : within (Bmult mode_NE h x) (- (maxf / 2)) (maxf / 2)). { apply mul_within; auto with fmtdb; try lra. rewrite Eh. lra. }
  assert (F3 : fin (Bmult mode_NE h x)) by (apply (within_fin _ _ _ W3); lra). pose proof (within_B2R _ _ _ F3 W3) as B3.
  assert (W4 : within (Bmult mode_NE (Bmult mode_NE h x) (Bplus mode_NE t fone)) (- maxf) maxf). { apply mul_within; auto with fmtdb; try lra. nra. }
  apply (within_fin _ _ _ W4); lra.
Qed.
Lemma exp_plus_1 x : num x -> num (Bplus mode_NE (l_exp lib x) fone) /\ 1 <= val (Bplus mode_NE (l_exp lib x) fone).
Proof. intros N. destruct (add_one _ (m_exp_num lib LO x N) (m_exp_pos lib LO x N)) as (A & B & _). auto. Qed.
Lemma f_sigmoid x : num x -> within (sigmoid x) 0 1.
Proof. intros N. unfold sigmoid. fold_ops. destruct (exp_plus_1 (Bopp x) (proj1 (val_opp x N))) as [A B]. now apply inv_ge1. Qed.
Lemma abs_plus_1 x : num x -> num (Bplus mode_NE (Babs x) fone) /\ 1 <= val (Bplus mode_NE (Babs x) fone) /\ Rabs (val x) <= val (Bplus mode_NE (Babs x) fone).
Proof. intros N. destruct (val_abs x N) as [Na Ea]. destruct (add_one (Babs x) Na) as (A & B & C); [rewrite Ea; apply Rabs_pos|]. rewrite Ea in C. auto. Qed.
Lemma f_softsign x : fin x -> within (softsign x) (-1) 1.
Proof.
  intros F. pose proof (fin_num x F) as N. unfold softsign. fold_ops. destruct (abs_plus_1 x N) as (A & B & C). set (y := Bplus mode_NE (Babs x) fone) in *. rewrite (fin_val x F) in C.
  destruct (split_num y A) as [Fy|[E|E]].
  - rewrite fin_val in B, C by exact Fy. pose proof B1. apply div_within; auto with fmtdb; try lra.
    assert (I : 0 < / B2R y) by (apply Rinv_0_lt_compat; lra). assert (Q : B2R y * / B2R y = 1) by (apply Rinv_r; lra). unfold Rdiv. pose proof (Rle_abs (B2R x)). pose proof (Rle_abs (- B2R x)). rewrite Rabs_Ropp in H1. nra.
  - rewrite E in B. cbn [val] in B. pose proof Bp. lra.
  - rewrite E. assert (Z : exists s, Bdiv mode_NE x (B754_infinity false) = B754_zero s). { unfold fin in F. destruct x as [?|?| |? ? ? ?]; try discriminate F; eexists; reflexivity. }
    destruct Z as [s ->]. split; [reflexivity|]. cbn. lra.
Qed.
Lemma f_softplus x : num x -> num (softplus x) /\ 0 <= val (softplus x).
Proof.
  intros N. unfold softplus. fold_ops. destruct (exp_plus_1 x N) as [A B]. set (y := Bplus mode_NE (l_exp lib x) fone) in *. destruct (split_num y A) as [F|[E|E]].
  - rewrite fin_val in B by exact F. pose proof (m_log_fin lib LO y F ltac:(lra)) as Fl. split; [now apply fin_num|]. rewrite fin_val by exact Fl. now apply (m_log_ge_1 lib LO).
  - rewrite E in B. cbn [val] in B. pose proof Bp. lra.
  - rewrite E, (m_log_inf lib LO). split; [reflexivity|]. cbn [val]. pose proof Bp. lra.
Qed.
Lemma f_swish x : fin x -> within (swish x) (Rmin 0 (B2R x)) (Rmax 0 (B2R x)).
Proof. intros F. unfold swish. fold_ops. destruct (exp_plus_1 (Bopp x) (proj1 (val_opp x (fin_num x F)))) as [A B]. now apply div_ge1. Qed.
Lemma f_mod_relu x : fin x -> fin (mod_relu x).
Proof.
  intros F. pose proof (fin_num x F) as N. unfold mod_relu. fold_ops. destruct lit_001 as [Fc Lc]. destruct lit_099 as [Fd Ld]. destruct (Bltb x _) eqn:G.
  - apply (minmax_fin x _ F), sgn_mul; auto. lra.
  - destruct (Bltb _ x) eqn:G1; [|exact F]. apply val_ltb in G1; auto using fin_num, one_fin. rewrite !fin_val in G1 by auto using one_fin. rewrite one_val in G1.
    destruct (val_mul _ x Fc F) as [Nm Em]. pose proof (sgn_mul x _ F Fc ltac:(lra)) as W. pose proof (minmax_fin x _ F W) as Fm. pose proof B64 as B. pose proof (big_lt x F).
    assert (W2 : within (Bmult mode_NE (fl_lit prec emax (1 # 100)) x) 0 (big emax / 2)).
    { assert (Fhb : fmt (big emax / 2)). { unfold big. replace (bpow radix2 emax / 2) with (bpow radix2 (emax - 1)); [apply fmtb; lia|]. unfold Z.sub. rewrite bpow_plus. change (bpow radix2 (- (1))) with (/ 2). lra. }
      pose proof Bp. apply mul_within; auto with fmtdb; try lra. nra. }
    pose proof (within_B2R _ _ _ Fm W2) as B2. assert (4 <= bpow radix2 64). { change 4 with (bpow radix2 2). apply bpow_le. lia. }
    assert (W3 : within (Bplus mode_NE (fl_lit prec emax (99 # 100)) (Bmult mode_NE (fl_lit prec emax (1 # 100)) x)) 0 maxf).
    { pose proof maxf_lt. pose proof fmt_maxf. apply add_within; auto with fmtdb; try lra. split; [lra|].
      assert (K : bpow radix2 (emax - prec) <= big emax / 8). { unfold big. replace (bpow radix2 emax / 8) with (bpow radix2 (emax - 3)); [apply bpow_le; lia|]. unfold Z.sub. rewrite bpow_plus. change (bpow radix2 (- (3))) with (/ 8). lra. }
      unfold maxf. fold (big emax). assert (8 <= bpow radix2 64). { change 8 with (bpow radix2 3). apply bpow_le. lia. } lra. }
    apply (within_fin _ _ _ W3); pose proof maxf_lt; lra.
Qed.
Lemma f_mod_tanh x : num x -> within (mod_tanh x) (-1) 1.
Proof.
  intros N. unfold mod_tanh. fold_ops. pose proof (m_tanh_range lib LO x N) as W. destruct (Bltb x _); [|exact W]. pose proof (sym_fin _ W) as F. pose proof (within_B2R _ _ _ F W) as B. destruct lit_001 as [Fc Lc].
  pose proof B1. apply mul_within; auto with fmtdb; try lra. nra.
Qed.

(** ** derivatives *)
Lemma d_scaled_exp (c : fl) x : fin c -> 0 <= B2R c <= 2 -> num x -> val x <= 0 -> within (Bmult mode_NE c (l_exp lib x)) 0 2.
Proof.
  intros Fc Lc N H. pose proof (m_exp_le_1 lib LO x N H) as H1. pose proof (m_exp_pos lib LO x N) as H0. pose proof (m_exp_num lib LO x N) as Ne.
  assert (W : within (l_exp lib x) 0 1) by (split; auto). pose proof (unit_fin _ W) as F. pose proof (within_B2R _ _ _ F W). pose proof B64 as B. assert (4 <= bpow radix2 64). { change 4 with (bpow radix2 2). apply bpow_le. lia. }
  apply mul_within; auto with fmtdb; try lra; [change 2 with (bpow radix2 1); apply fmtb; lia|nra].
Qed.
Lemma one_within : within fone 0 1. Proof. split; [apply fin_num, one_fin|]. rewrite fin_val by apply one_fin. rewrite one_val. lra. Qed.
Lemma zero_within : within (B754_zero false : fl) 0 1. Proof. split; [reflexivity|]. cbn. lra. Qed.
Lemma lit001_within : within (fl_lit prec emax (1 # 100)) 0 1. Proof. destruct lit_001 as [F L]. split; [now apply fin_num|]. rewrite fin_val by exact F. lra. Qed.
Lemma d_elu x : num x -> within (elu_derived x) 0 1.
Proof.
  intros N. unfold elu_derived. destruct (gt0 x) eqn:G; fold_ops; [apply one_within|]. apply gt0_false in G; [|exact N]. destruct lit_02 as [F L].
  pose proof (m_exp_le_1 lib LO x N G) as H1. pose proof (m_exp_pos lib LO x N) as H0. pose proof (m_exp_num lib LO x N) as Ne.
  assert (W : within (l_exp lib x) 0 1) by (split; auto). pose proof (unit_fin _ W) as Fe. pose proof (within_B2R _ _ _ Fe W). pose proof B1. apply mul_within; auto with fmtdb; try lra. nra.
Qed.
Lemma d_selu x : num x -> within (selu_derived x) 0 2.
Proof.
  intros N. unfold selu_derived. destruct (gt0 x) eqn:G; fold_ops.
  - destruct lit_lambda as [F L]. split; [now apply fin_num|]. rewrite fin_val by exact F. lra.
  - apply gt0_false in G; [|exact N]. destruct lit_beta as [F L]. apply d_scaled_exp; auto. lra.
Qed.
Lemma sech_within x : num x -> within (Bdiv mode_NE fone (l_cosh lib x)) 0 1.
Proof. intros N. destruct (m_cosh_ge_1 lib LO x N) as [A B]. now apply inv_ge1. Qed.
Lemma d_sigmoid x : num x -> within (sigmoid_derived x) 0 (/ 2).
Proof.
  intros N. unfold sigmoid_derived, half. fold_ops. destruct (m_cosh_ge_1 lib LO x N) as [A B]. destruct (add_one _ A ltac:(lra)) as (C & D & _).
  destruct lit_half as [Fh Eh]. pose proof (div_ge1 _ _ Fh C D) as W. rewrite Eh in W. rewrite Rmin_left, Rmax_right in W by lra. exact W.
Qed.
Lemma d_tanh x : num x -> within (tanh_derived x) 0 1.
Proof. intros N. unfold tanh_derived. fold_ops. now apply square_unit, sech_within. Qed.
Lemma d_softsign x : num x -> within (softsign_derived x) 0 1.
Proof. intros N. unfold softsign_derived. fold_ops. destruct (abs_plus_1 x N) as (A & B & _). now apply square_unit, inv_ge1. Qed.
Lemma d_mod_tanh x : num x -> within (mod_tanh_derived x) 0 1.
Proof.
  intros N. unfold mod_tanh_derived. fold_ops. pose proof (square_unit _ (sech_within x N)) as W. destruct (Bltb x _); [|exact W].
  pose proof (unit_fin _ W) as F. pose proof (within_B2R _ _ _ F W). destruct lit_001 as [Fc Lc]. pose proof B1. apply mul_within; auto with fmtdb; try lra. nra.
Qed.

(** ** where results overflow or are NaN *)
Lemma big_inf (y : fl) : num y -> val y = big emax -> y = B754_infinity false.
Proof.
  intros N E. destruct (split_num y N) as [F|[->| ->]]; auto.
  - rewrite fin_val in E by exact F. pose proof (big_lt y F). lra.
  - cbn [val] in E. pose proof Bp. lra.
Qed.
Lemma mul_over x y : fin x -> fin y -> big emax <= B2R x * B2R y -> Bmult mode_NE x y = B754_infinity false.
Proof.
  intros Fx Fy H. destruct (val_mul x y Fx Fy) as [N E]. apply big_inf; [exact N|]. rewrite E. apply clamp_up.
  rewrite <- (rnd_id (big emax)) by apply fbig. now apply rnd_le.
Qed.
Lemma inf_plus_one : Bplus mode_NE (B754_infinity false) fone = B754_infinity false.
Proof. pose proof one_fin as O. unfold fin in O. destruct fone as [?|?| |? ? ? ?]; try discriminate O; reflexivity. Qed.
Lemma softplus_over x : fin x -> IZR emax <= B2R x -> softplus x = B754_infinity false.
Proof.
  intros F H. unfold softplus. fold_ops. rewrite (m_exp_overflow lib LO x (fin_num x F)) by (now rewrite fin_val). rewrite inf_plus_one. apply (m_log_inf lib LO).
Qed.
Lemma lit_lambda2 : 33 / 32 <= B2R (fl_lit prec emax (1050701 # 1000000)).
Proof.
  destruct lit_lambda as [F L]. destruct (lit_val 1050701 1000000) as [N E].
  - apply fmt_Z. assert (2 ^ 24 <= 2 ^ prec)%Z by (apply Z.pow_le_mono_r; lia). lia.
  - apply fmt_small. lia.
  - rewrite Rabs_pos_eq by lra. pose proof B64. assert (IZR 1050701 < bpow radix2 64); [|lra]. cbn [bpow]. cbn -[IZR]. lra.
  - rewrite Rabs_pos_eq by lra. pose proof B64. assert (1000000 < bpow radix2 64); [|lra]. cbn [bpow]. cbn -[IZR]. lra.
  - rewrite <- fin_val by exact F. rewrite E. assert (F33 : fmt (33 / 32)).
    { replace (33 / 32) with (IZR 33 * bpow radix2 (-5)) by (cbn; lra). apply fmt_scaled; [|pose proof PE; lia]. assert (2 ^ 24 <= 2 ^ prec)%Z by (apply Z.pow_le_mono_r; lia). cbn. lia. }
    replace (33 / 32) with (clamp (rnd (33 / 32))); [apply clamp_le, rnd_le; lra|]. rewrite rnd_id by exact F33. apply clamp_id. pose proof B64. assert (33 / 32 < bpow radix2 64); [|lra]. cbn [bpow]. cbn -[IZR]. lra.
Qed.
Lemma selu_over x : fin x -> 32 / 33 * big emax <= B2R x -> selu x = B754_infinity false.
Proof.
  intros F H. pose proof Bp. unfold selu. assert (G : gt0 x = true) by (apply gt0_spec; [now apply fin_num|rewrite fin_val by exact F; lra]). rewrite G. fold_ops.
  destruct lit_lambda as [Fl _]. pose proof lit_lambda2. apply mul_over; auto. nra.
Qed.
Lemma swish_d_nan x : fin x -> B2R x <= - IZR emax -> swish_derived x = B754_nan.
Proof.
  intros F H. pose proof (fin_num x F) as N. destruct (val_opp x N) as [No Eo]. rewrite (fin_val x F) in Eo. assert (0 < IZR emax) by (apply IZR_lt; pose proof PE; lia).
  unfold swish_derived. fold_ops. rewrite (m_exp_overflow lib LO (Bopp x) No) by (rewrite Eo; lra). rewrite inf_plus_one.
  unfold fin in F. destruct x as [s|s| |[] m e B]; try discriminate F; [cbn in H; lra| |]; cbn.
  - reflexivity.
  - exfalso. assert (0 < B2R (B754_finite false m e B)) by (cbn; now apply F2R_gt_0). lra.
Qed.
Lemma pos_sign (c : fl) : fin c -> 0 < B2R c -> exists m e B, c = B754_finite false m e B.
Proof.
  intros F H. unfold fin in F. destruct c as [s|s| |[] m e B]; try discriminate F; [cbn in H; lra| |eauto].
  exfalso. assert (F2R (Float radix2 (Z.neg m) e) < 0) by now apply F2R_lt_0. cbn in H. lra.
Qed.
Lemma gelu_d_nan x : fin x -> big emax <= B2R x * B2R x -> gelu_derived x = B754_nan.
Proof.
  intros F H. unfold gelu_derived, half. fold_ops. cbv zeta. rewrite (mul_over x x F F H).
  destruct lit_ga as [Fa La]. destruct lit_gb as [Fb Lb]. destruct lit_gc as [Fc Lc]. destruct lit_gd as [Fd Ld]. destruct lit_half as [Fh Eh].
  set (a := fl_lit prec emax (797885 # 1000000)) in *. set (b := fl_lit prec emax (356774 # 10000000)) in *. set (c := fl_lit prec emax (535161 # 10000000)) in *.
  set (d := fl_lit prec emax (398942 # 1000000)) in *. set (h := fl_lit prec emax (1 # 2)) in *.
  assert (Fbx : fin (Bmult mode_NE b x)) by (apply (minmax_fin x _ F), sgn_mul; auto; lra).
  assert (Fdx : fin (Bmult mode_NE d x)) by (apply (minmax_fin x _ F), sgn_mul; auto; lra).
  set (bx := Bmult mode_NE b x) in *. set (dx := Bmult mode_NE d x) in *.
  destruct (pos_sign a Fa ltac:(lra)) as (ma & ea & Ha & ->). destruct (pos_sign c Fc ltac:(lra)) as (mc & ec & Hc & ->).
  assert (Q : exists s, Bmult mode_NE (B754_infinity false) x = B754_infinity s).
  { unfold fin in F. destruct x as [s|s| |s m e B]; try discriminate F; [cbn in H; pose proof Bp; lra|]. eexists. reflexivity. }
  destruct Q as [s ->].
  assert (Y : Bplus mode_NE (Bmult mode_NE (B754_finite false ma ea Ha) (B754_infinity s)) bx = B754_infinity s).
  { cbn. unfold fin in Fbx. destruct bx as [?|?| |? ? ? ?]; try discriminate Fbx; destruct s; reflexivity. }
  rewrite Y, (m_cosh_inf lib LO s).
  assert (Z : Bdiv mode_NE fone (B754_infinity false) = B754_zero false). { destruct (pos_sign fone one_fin ltac:(rewrite one_val; lra)) as (m1 & e1 & H1 & ->). reflexivity. }
  rewrite Z.
  assert (W : Bplus mode_NE (Bmult mode_NE (B754_finite false mc ec Hc) (B754_infinity s)) dx = B754_infinity s).
  { cbn. unfold fin in Fdx. destruct dx as [?|?| |? ? ? ?]; try discriminate Fdx; destruct s; reflexivity. }
  rewrite W. cbn [Bmult]. destruct (Bmult mode_NE h (l_tanh lib (B754_infinity s))) as [?|?| |? ? ? ?]; reflexivity.
Qed.

(** ** where the derivatives of Swish and GELU are finite *)
Lemma within_abs x (a : R) : within x (- a) a -> a < big emax -> fin x /\ Rabs (B2R x) <= a.
Proof. intros W H. assert (F : fin x) by (apply (within_fin _ _ _ W); lra). split; [exact F|]. apply Rabs_le. now apply within_B2R. Qed.
Lemma mul_abs x y (a b : Z) : fin x -> fin y -> Rabs (B2R x) <= bpow radix2 a -> Rabs (B2R y) <= bpow radix2 b -> (-60 <= a + b < emax)%Z ->
  fin (Bmult mode_NE x y) /\ Rabs (B2R (Bmult mode_NE x y)) <= bpow radix2 (a + b).
Proof.
  intros Fx Fy Hx Hy H. assert (L : bpow radix2 (a + b) < big emax) by (apply bpow_lt; lia). pose proof (bpow_gt_0 radix2 (a + b)). apply within_abs; [|exact L].
  apply mul_within; auto using fmtb with fmtdb; try lra.
  - apply fmt_opp, fmtb. lia.
  - apply fmtb. lia.
  - apply Rabs_le_inv. rewrite Rabs_mult, bpow_plus. apply Rmult_le_compat; auto using Rabs_pos.
Qed.
Lemma add_abs x y (a b : Z) : fin x -> fin y -> Rabs (B2R x) <= bpow radix2 a -> Rabs (B2R y) <= bpow radix2 b -> (-60 <= Z.max a b + 1 < emax)%Z ->
  fin (Bplus mode_NE x y) /\ Rabs (B2R (Bplus mode_NE x y)) <= bpow radix2 (Z.max a b + 1).
Proof.
  intros Fx Fy Hx Hy H. set (c := Z.max a b) in *. assert (Ha : bpow radix2 a <= bpow radix2 c) by (apply bpow_le; lia). assert (Hb : bpow radix2 b <= bpow radix2 c) by (apply bpow_le; lia).
  assert (L : bpow radix2 (c + 1) < big emax) by (apply bpow_lt; lia). pose proof (bpow_gt_0 radix2 (c + 1)). assert (E : bpow radix2 (c + 1) = 2 * bpow radix2 c) by (rewrite bpow_plus; change (bpow radix2 1) with 2; ring).
  apply within_abs; [|exact L]. apply add_within; auto using fmtb with fmtdb; try lra.
  - apply fmt_opp, fmtb. lia.
  - apply fmtb. lia.
  - pose proof (Rabs_le_inv _ _ Hx). pose proof (Rabs_le_inv _ _ Hy). lra.
Qed.
Lemma abs_bound x a b : fin x -> a <= B2R x <= b -> - b <= a -> Rabs (B2R x) <= b. Proof. intros _ H H1. apply Rabs_le. lra. Qed.
Lemma d_gelu_fin x (k : Z) : fin x -> (0 <= k)%Z -> (3 * k + 4 <= emax)%Z -> Rabs (B2R x) <= bpow radix2 k -> fin (gelu_derived x).
Proof.
  intros F K0 K H. unfold gelu_derived, half. fold_ops. cbv zeta.
  destruct lit_ga as [Fa La]. destruct lit_gb as [Fb Lb]. destruct lit_gc as [Fc Lc]. destruct lit_gd as [Fd Ld]. destruct lit_half as [Fh Eh].
  set (a := fl_lit prec emax (797885 # 1000000)) in *. set (b := fl_lit prec emax (356774 # 10000000)) in *. set (c := fl_lit prec emax (535161 # 10000000)) in *.
  set (d := fl_lit prec emax (398942 # 1000000)) in *. set (h := fl_lit prec emax (1 # 2)) in *.
  assert (Aa : Rabs (B2R a) <= bpow radix2 0) by (change (bpow radix2 0) with 1; rewrite Rabs_pos_eq; lra).
  assert (Ab : Rabs (B2R b) <= bpow radix2 0) by (change (bpow radix2 0) with 1; rewrite Rabs_pos_eq; lra).
  assert (Ac : Rabs (B2R c) <= bpow radix2 0) by (change (bpow radix2 0) with 1; rewrite Rabs_pos_eq; lra).
  assert (Ad : Rabs (B2R d) <= bpow radix2 0) by (change (bpow radix2 0) with 1; rewrite Rabs_pos_eq; lra).
  assert (Ah : Rabs (B2R h) <= bpow radix2 0) by (change (bpow radix2 0) with 1; rewrite Rabs_pos_eq; lra).
  destruct (mul_abs x x k k F F H H ltac:(lia)) as [F2 H2]. destruct (mul_abs _ x (k + k) k F2 F H2 H ltac:(lia)) as [F3 H3].
  set (x3 := Bmult mode_NE (Bmult mode_NE x x) x) in *.
  destruct (mul_abs a x3 0 (k + k + k) Fa F3 Aa H3 ltac:(lia)) as [F4 H4]. destruct (mul_abs b x 0 k Fb F Ab H ltac:(lia)) as [F5 H5].
  destruct (add_abs _ _ _ _ F4 F5 H4 H5 ltac:(lia)) as [Fy Hy]. set (y := Bplus mode_NE (Bmult mode_NE a x3) (Bmult mode_NE b x)) in *.
  pose proof (sech_within y (fin_num y Fy)) as Ws. set (s := Bdiv mode_NE fone (l_cosh lib y)) in *. pose proof (unit_fin s Ws) as Fs. pose proof (within_B2R _ _ _ Fs Ws) as Bs.
  assert (As : Rabs (B2R s) <= bpow radix2 0) by (change (bpow radix2 0) with 1; rewrite Rabs_pos_eq; lra).
  pose proof (m_tanh_range lib LO y (fin_num y Fy)) as Wt. pose proof (sym_fin _ Wt) as Ft. pose proof (within_B2R _ _ _ Ft Wt) as Bt. set (t := l_tanh lib y) in *.
  assert (At : Rabs (B2R t) <= bpow radix2 0) by (change (bpow radix2 0) with 1; apply Rabs_le; lra).
  destruct (mul_abs c x3 0 (k + k + k) Fc F3 Ac H3 ltac:(lia)) as [F6 H6]. destruct (mul_abs d x 0 k Fd F Ad H ltac:(lia)) as [F7 H7].
  destruct (add_abs _ _ _ _ F6 F7 H6 H7 ltac:(lia)) as [F8 H8]. destruct (mul_abs _ s _ 0 F8 Fs H8 As ltac:(lia)) as [F9 H9]. destruct (mul_abs _ s _ 0 F9 Fs H9 As ltac:(lia)) as [F10 H10].
  destruct (mul_abs h t 0 0 Fh Ft Ah At ltac:(lia)) as [F11 H11]. destruct (add_abs _ _ _ _ F11 F10 H11 H10 ltac:(lia)) as [F12 H12].
  apply (add_abs _ _ _ _ F12 Fh H12 Ah). lia.
Qed.
Lemma d_swish_fin x (k : Z) : fin x -> (0 <= k)%Z -> (4 * k + 4 <= emax)%Z -> - IZR k <= B2R x <= bpow radix2 (emax - 2) -> fin (swish_derived x).
Proof.
  intros F K0 K [H H']. pose proof (fin_num x F) as N. destruct (val_opp x N) as [No Eo]. rewrite (fin_val x F) in Eo. unfold swish_derived. fold_ops. cbv zeta.
  pose proof (m_exp_growth lib LO (Bopp x) k No K0 ltac:(rewrite Eo; lra)) as G. pose proof (m_exp_pos lib LO (Bopp x) No) as G0. pose proof (m_exp_num lib LO (Bopp x) No) as Na. set (a := l_exp lib (Bopp x)) in *.
  assert (Fa : fin a). { apply fin_iff. split; [exact Na|]. rewrite Rabs_pos_eq by exact G0. apply Rle_lt_trans with (1 := G). apply bpow_lt. lia. }
  rewrite (fin_val a Fa) in G, G0. assert (Aa : Rabs (B2R a) <= bpow radix2 (2 * k)) by (now rewrite Rabs_pos_eq).
  assert (A1 : Rabs (B2R fone) <= bpow radix2 0) by (rewrite one_val; change (bpow radix2 0) with 1; rewrite Rabs_R1; lra).
  destruct (add_abs a fone _ _ Fa one_fin Aa A1 ltac:(lia)) as [Fb Hb]. destruct (add_one a Na ltac:(rewrite fin_val by exact Fa; lra)) as (_ & B1 & _).
  set (b := Bplus mode_NE a fone) in *. rewrite (fin_val b Fb) in B1. destruct (mul_abs b b _ _ Fb Fb Hb Hb ltac:(lia)) as [Fbb Hbb].
  assert (Fax : fin (Bmult mode_NE a x) /\ Rabs (B2R (Bmult mode_NE a x)) <= bpow radix2 (emax - 2)).
  { destruct (Rle_dec (B2R x) 0) as [Hs|Hs].
    - assert (Hk : Rabs (B2R x) <= bpow radix2 k). { rewrite Rabs_left1 by exact Hs. apply Rle_trans with (IZR k); [lra|]. rewrite <- (IZR_Zpower radix2) by exact K0. apply IZR_le. apply Z.lt_le_incl. apply (Zpower_gt_id radix2). }
      destruct (mul_abs a x (2 * k) k Fa F Aa Hk ltac:(lia)) as [Q1 Q2]. split; [exact Q1|]. apply Rle_trans with (1 := Q2). apply bpow_le. lia.
    - pose proof (m_exp_le_1 lib LO (Bopp x) No ltac:(rewrite Eo; lra)) as E1. fold a in E1. rewrite (fin_val a Fa) in E1.
      assert (A0 : Rabs (B2R a) <= bpow radix2 0) by (change (bpow radix2 0) with 1; rewrite Rabs_pos_eq; lra).
      destruct (mul_abs a x 0 (emax - 2) Fa F A0 ltac:(rewrite Rabs_pos_eq; lra) ltac:(lia)) as [Q1 Q2]. split; [exact Q1|exact Q2]. }
  destruct Fax as [Fax Hax]. assert (Hb' : Rabs (B2R b) <= bpow radix2 (emax - 2)) by (apply Rle_trans with (1 := Hb), bpow_le; lia).
  destruct (add_abs _ b _ _ Fax Fb Hax Hb' ltac:(lia)) as [Fn Hn]. rewrite Z.max_id in Hn.
  assert (Bb : 1 <= B2R (Bmult mode_NE b b)).
  { rewrite <- fin_val by exact Fbb. rewrite (proj2 (val_mul b b Fb Fb)). replace 1 with (clamp (rnd 1)) at 1; [apply clamp_le, rnd_le; nra|]. rewrite rnd_id by auto with fmtdb. apply clamp_id. pose proof one_lt_big. lra. }
  apply (minmax_fin _ _ Fn). apply div_ge1; [exact Fn|now apply fin_num|]. now rewrite fin_val.
Qed.
End Act.
