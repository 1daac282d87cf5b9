(** * C93: random floating-point numbers in IEEE arithmetic *)
From Coq Require Import ZArith Reals Lra Lia Psatz Bool.
From Flocq Require Import Core BinarySingleNaN.
From Verif Require Import Scalar Misc Float FloatSpec FloatLemmas.
Local Open Scope R_scope.

Section Random.
Context {prec emax : Z} {Hp : Prec_gt_0 prec} {He : Prec_lt_emax prec emax} (lib : libm prec emax).
Notation fl := (fl prec emax).
Notation rnd := (rnd (prec := prec) (emax := emax)).
Notation fmt := (fmt (prec := prec) (emax := emax)).
Notation clamp := (clamp (emax := emax)).
Notation rnd_le := (rnd_le (prec := prec) (emax := emax)).
Notation rnd_id := (rnd_id (prec := prec) (emax := emax)).
#[local] Existing Instance fexp_ok.
#[local] Existing Instance fexp_mono.
#[local] Instance NF : Num fl := Num_fl prec emax lib.

(** random() is a number between 0 and 1, for every generator output, whatever the rounding of the two conversions. *)
Theorem C93_unit_interval (g gmax : Z) : (0 <= g <= gmax)%Z -> (0 < gmax)%Z -> IZR gmax <= big emax / 2 ->
  fin (random_floating g gmax : fl) /\ 0 <= B2R (random_floating g gmax : fl) <= 1.
Proof.
  intros Hg Hm Hb. unfold random_floating. cbn [div ofZ NF Num_fl].
  pose proof (big_pos (emax := emax)) as BP. pose proof (big_gt_1 (prec := prec) (emax := emax)) as B1.
  assert (Fh : fmt (big emax / 2)).
  { unfold big. replace (bpow radix2 emax / 2) with (bpow radix2 (emax - 1)).
    - apply fmt_bpow. pose proof Hp as Q1; pose proof He as Q2; unfold Prec_gt_0, Prec_lt_emax in *; lia.
    - unfold Z.sub. rewrite bpow_plus. change (bpow radix2 (- (1))) with (/ 2). lra. }
  assert (G0 : 0 <= IZR g) by (apply IZR_le; lia). assert (G1 : IZR g <= IZR gmax) by (apply IZR_le; lia). assert (G2 : 1 <= IZR gmax) by (apply IZR_le; lia).
  destruct (val_ofZ g) as [N1 E1]. destruct (val_ofZ gmax) as [N2 E2].
  destruct (rnd_between 0 (big emax / 2) (IZR g) fmt_0 Fh) as [A1 A2]; [lra|]. destruct (rnd_between 1 (big emax / 2) (IZR gmax) fmt_1 Fh) as [A3 A4]; [lra|].
  pose proof (rnd_le _ _ G1) as A5.
  rewrite clamp_id in E1, E2 by lra.
  assert (F1 : fin (fl_ofZ prec emax g)) by (apply fin_iff; split; [exact N1|rewrite E1, Rabs_pos_eq; lra]).
  assert (F2 : fin (fl_ofZ prec emax gmax)) by (apply fin_iff; split; [exact N2|rewrite E2, Rabs_pos_eq; lra]).
  rewrite fin_val in E1, E2 by assumption.
  assert (W : within (Bdiv mode_NE (fl_ofZ prec emax g) (fl_ofZ prec emax gmax)) 0 1).
  { apply div_within; auto using fmt_0, fmt_1; try lra. rewrite E1, E2. split.
    - apply Rmult_le_pos; [lra|]. left. apply Rinv_0_lt_compat. lra.
    - apply Rmult_le_reg_r with (rnd (IZR gmax)); [lra|]. unfold Rdiv. rewrite Rmult_assoc, Rinv_l by lra. lra. }
  assert (F : fin (Bdiv mode_NE (fl_ofZ prec emax g) (fl_ofZ prec emax gmax))) by (apply (within_fin _ _ _ W); lra).
  split; [exact F|]. destruct W as [_ W]. now rewrite fin_val in W.
Qed.

Section Range.
Context (g gmax : Z) (Hg : (0 <= g <= gmax)%Z) (Hm : (0 < gmax)%Z) (Hb : IZR gmax <= big emax / 2).
Context (lo hi : fl) (Fl : fin lo) (Fh : fin hi) (Le : B2R lo <= B2R hi).
(** the product (max - min) * random() *)
Lemma scaled_within : fin (sub hi lo) -> within (mul (sub hi lo) (random_floating g gmax)) 0 (B2R (sub hi lo)).
Proof.
  intros Fd. destruct (C93_unit_interval g gmax Hg Hm Hb) as [Fr R]. cbn [sub mul NF Num_fl] in *.
  destruct (val_sub hi lo Fh Fl) as [N E]. rewrite fin_val in E by exact Fd. pose proof (big_pos (emax := emax)) as BP.
  assert (D0 : 0 <= B2R (Bminus mode_NE hi lo)).
  { rewrite E. replace 0 with (clamp (rnd 0)); [apply clamp_le, rnd_le; lra|]. rewrite rnd_0. apply clamp_id. lra. }
  apply mul_within; auto using fmt_0, fmt_B2R; try nra. apply Rlt_le, big_lt, Fd.
Qed.
(** random(min, max) is a number and never below min; it is never above the rounding of rounded (max - min) plus min *)
Theorem C93_lower_bound : fin (sub hi lo) ->
  num (random_floating_range g gmax lo hi) /\ B2R lo <= val (random_floating_range g gmax lo hi) <= clamp (rnd (B2R (sub hi lo) + B2R lo)).
Proof.
  intros Fd. destruct (scaled_within Fd) as [N [P1 P2]]. unfold random_floating_range. set (p := mul (sub hi lo) (random_floating g gmax)) in *.
  assert (Fp : fin p). { apply (within_fin p 0 (B2R (sub hi lo))); [split; auto| |]. - pose proof (big_pos (emax := emax)). lra. - apply big_lt, Fd. }
  rewrite fin_val in P1, P2 by exact Fp. cbn [add NF Num_fl]. destruct (val_add p lo Fp Fl) as [Na Ea]. split; [exact Na|]. rewrite Ea. split.
  - replace (B2R lo) with (clamp (rnd (0 + B2R lo))) at 1; [apply clamp_le, rnd_le; lra|].
    rewrite Rplus_0_l, rnd_id by apply fmt_B2R. apply clamp_id. pose proof (big_lt lo Fl). lra.
  - apply clamp_le, rnd_le. lra.
Qed.
(** when the width max - min is exactly representable - min = 0, min = - max, integer ends of moderate size, ... - the result
    is in the requested range *)
Theorem C93_exact_width_partial : fmt (B2R hi - B2R lo) -> B2R hi - B2R lo < big emax ->
  fin (random_floating_range g gmax lo hi) /\ B2R lo <= B2R (random_floating_range g gmax lo hi) <= B2R hi.
Proof.
  intros Fw Bw. pose proof (big_pos (emax := emax)) as BP. destruct (val_sub hi lo Fh Fl) as [N E]. rewrite rnd_id, clamp_id in E by (auto; lra).
  assert (Fd : fin (sub hi lo)). { cbn [sub NF Num_fl]. apply fin_iff. split; [exact N|]. rewrite E, Rabs_pos_eq; lra. }
  destruct (C93_lower_bound Fd) as [Nr [L U]]. cbn [sub NF Num_fl] in *. rewrite fin_val in E by exact Fd.
  rewrite E in U. replace (B2R hi - B2R lo + B2R lo) with (B2R hi) in U by lra. rewrite rnd_id in U by apply fmt_B2R.
  pose proof (big_lt lo Fl) as Bl. pose proof (big_lt hi Fh) as Bh. rewrite clamp_id in U by lra.
  assert (Fr : fin (random_floating_range g gmax lo hi)) by (apply fin_iff; split; [exact Nr|apply Rabs_def1; lra]).
  split; [exact Fr|]. now rewrite fin_val in L, U.
Qed.
End Range.

(** In general the upper end can be exceeded: with min = -1 and max = 3 * 2^-(prec+1) the largest generator output gives 2^(1-prec), a
    third more than max. *)
Theorem C93_exceeds_max_refuted (gmax : Z) (lo hi : fl) : (2 <= prec)%Z -> (0 < gmax)%Z -> IZR gmax <= big emax / 2 ->
  fin lo -> B2R lo = -1 -> fin hi -> B2R hi = 3 * bpow radix2 (- prec - 1) ->
  fin (random_floating_range gmax gmax lo hi) /\ B2R hi * (4 / 3) <= B2R (random_floating_range gmax gmax lo hi).
Proof.
  intros P2 Hm Hb Fl El Fh Eh. pose proof (big_pos (emax := emax)) as BP. pose proof He as PE; unfold Prec_lt_emax in PE; pose proof Hp as PP; unfold Prec_gt_0 in PP.
  set (t := bpow radix2 (- prec - 1)) in *.
  assert (Tp : 0 < t) by apply bpow_gt_0.
  assert (T8 : 8 * t <= 1). { replace 8 with (bpow radix2 3) by (cbn; lra). unfold t. rewrite <- bpow_plus. change 1 with (bpow radix2 0). apply bpow_le. lia. }
  assert (B4 : 4 <= big emax). { replace 4 with (bpow radix2 2) by (cbn; lra). unfold big. apply bpow_le. lia. }
  (* rnd (1 + 3 t) >= 1 + 4 t *)
  assert (Su : succ radix2 (SpecFloat.fexp prec emax) 1 = 1 + 4 * t).
  { rewrite succ_eq_pos by lra. f_equal. change 1 with (bpow radix2 0). rewrite ulp_bpow. replace 4 with (bpow radix2 2) by (cbn; lra). unfold t. rewrite <- bpow_plus. f_equal.
    rewrite fexp_flt. unfold FLT_exp. lia. }
  assert (Fs : fmt (1 + 4 * t)). { rewrite <- Su. apply generic_format_succ; [typeclasses eauto|apply fmt_1]. }
  assert (Rg : 1 + 4 * t <= rnd (1 + 3 * t)).
  { unfold rnd. apply round_N_ge_midp; [exact (fexp_ok (prec := prec) (emax := emax))|exact Fs|].
    assert (Pr : pred radix2 (SpecFloat.fexp prec emax) (1 + 4 * t) = 1) by (rewrite <- Su; apply pred_succ; [typeclasses eauto|apply fmt_1]). rewrite Pr. lra. }
  assert (F2 : fmt 2). { change 2 with (bpow radix2 1). apply fmt_bpow. lia. }
  destruct (rnd_between 1 2 (1 + 3 * t) fmt_1 F2) as [_ Ru]; [lra|].
  destruct (val_sub hi lo Fh Fl) as [N E]. rewrite El, Eh in E. replace (3 * t - -1) with (1 + 3 * t) in E by lra. rewrite clamp_id in E by lra.
  assert (Fd : fin (Bminus mode_NE hi lo)) by (apply fin_iff; split; [exact N|rewrite E, Rabs_pos_eq; lra]).
  rewrite fin_val in E by exact Fd.
  (* random() = 1 *)
  destruct (C93_unit_interval gmax gmax ltac:(lia) Hm Hb) as [Fr Rr].
  assert (R1 : B2R (random_floating gmax gmax : fl) = 1).
  { unfold random_floating in *. cbn [div ofZ NF Num_fl] in *. assert (G2 : 1 <= IZR gmax) by (apply IZR_le; lia).
    destruct (val_ofZ gmax) as [N2 E2]. assert (Fhb : fmt (big emax / 2)).
    { unfold big. replace (bpow radix2 emax / 2) with (bpow radix2 (emax - 1)).
      - apply fmt_bpow. lia.
      - unfold Z.sub. rewrite bpow_plus. change (bpow radix2 (- (1))) with (/ 2). lra. }
    destruct (rnd_between 1 (big emax / 2) (IZR gmax) fmt_1 Fhb) as [A3 A4]; [lra|]. rewrite clamp_id in E2 by lra.
    assert (F3 : fin (fl_ofZ prec emax gmax)) by (apply fin_iff; split; [exact N2|rewrite E2, Rabs_pos_eq; lra]).
    rewrite fin_val in E2 by exact F3.
    destruct (val_div _ _ F3 F3) as [_ E3]; [lra|]. rewrite fin_val in E3 by exact Fr. rewrite E3. unfold Rdiv. rewrite Rinv_r by lra. rewrite rnd_id by apply fmt_1. apply clamp_id. lra. }
  unfold random_floating_range. cbn [add mul sub NF Num_fl].
  set (d := Bminus mode_NE hi lo) in *. set (r := random_floating gmax gmax) in *.
  destruct (val_mul d r Fd Fr) as [Np Ep]. rewrite R1, Rmult_1_r in Ep. rewrite rnd_id, clamp_id in Ep by (apply fmt_B2R || lra).
  assert (Fp : fin (Bmult mode_NE d r)) by (apply fin_iff; split; [exact Np|rewrite Ep, Rabs_pos_eq; lra]).
  rewrite fin_val in Ep by exact Fp.
  destruct (val_add _ lo Fp Fl) as [Na Ea]. rewrite Ep, El in Ea.
  assert (F4 : fmt (4 * t)). { replace 4 with (bpow radix2 2) by (cbn; lra). unfold t. rewrite <- bpow_plus. apply fmt_bpow. lia. }
  destruct (rnd_between (4 * t) 1 (B2R d + -1) F4 fmt_1) as [A B]; [lra|]. rewrite clamp_id in Ea by lra.
  assert (Fa : fin (Bplus mode_NE (Bmult mode_NE d r) lo)) by (apply fin_iff; split; [exact Na|rewrite Ea, Rabs_pos_eq; lra]).
  split; [exact Fa|]. rewrite fin_val in Ea by exact Fa. rewrite Ea, Eh. lra.
Qed.
(** And when max - min overflows, the smallest generator output gives NaN. *)
Theorem C93_wide_range_refuted (gmax : Z) (lo hi : fl) : (0 < gmax)%Z -> IZR gmax <= big emax / 2 ->
  fin lo -> fin hi -> big emax <= B2R hi - B2R lo -> random_floating_range 0 gmax lo hi = B754_nan.
Proof.
  intros Hm Hb Fl Fh W. destruct (val_sub hi lo Fh Fl) as [N E]. pose proof (big_pos (emax := emax)) as BP.
  assert (R : big emax <= rnd (B2R hi - B2R lo)). { rewrite <- (rnd_id (big emax)) by apply fmt_big. now apply rnd_le. }
  rewrite clamp_up in E by exact R.
  assert (I : Bminus mode_NE hi lo = B754_infinity false).
  { destruct (Bminus mode_NE hi lo) as [s|[]| |s m e H] eqn:Q; cbn [val] in E; try reflexivity; try (cbn in E; lra).
    - assert (B : B2R (B754_finite s m e H) < big emax) by (apply big_lt; reflexivity). cbn [val] in E. lra. }
  destruct (C93_unit_interval 0 gmax ltac:(lia) Hm Hb) as [Fr _].
  assert (Z0 : exists s, (random_floating 0 gmax : fl) = B754_zero s).
  { unfold random_floating in *. cbn [div ofZ NF Num_fl] in *. change (fl_ofZ prec emax 0) with (B754_zero false : fl) in *.
    destruct (fl_ofZ prec emax gmax) as [s|s| |s m e H] eqn:Q; cbn [Bdiv] in *; try (eexists; reflexivity); try discriminate Fr. }
  destruct Z0 as [s Es]. unfold random_floating_range. rewrite Es. cbn [add mul sub NF Num_fl]. rewrite I. reflexivity.
Qed.
End Random.

(** ** The hypotheses can be met: double precision with rand() *)
Module Examples.
#[local] Instance Hp53 : Prec_gt_0 53 := eq_refl.
#[local] Instance He53 : Prec_lt_emax 53 1024 := eq_refl.
Lemma rand_ok : IZR rand_max <= big 1024 / 2.
Proof.
  assert (L : IZR (2 ^ 31) <= big 1024 / 2).
  { change (2 ^ 31)%Z with (Z.pow (radix_val radix2) 31). rewrite IZR_Zpower by lia. unfold big. replace (bpow radix2 1024 / 2) with (bpow radix2 1023); [apply bpow_le; lia|].
    change 1024%Z with (1023 + 1)%Z. rewrite bpow_plus. change (bpow radix2 1) with 2. lra. }
  assert (IZR rand_max <= IZR (2 ^ 31)) by (apply IZR_le; unfold rand_max; lia). lra.
Qed.
(** -1 and 3 * 2^-54 are doubles *)
Example C93_applies : exists lo hi : fl 53 1024, fin lo /\ B2R lo = -1 /\ fin hi /\ B2R hi = 3 * bpow radix2 (- (53) - 1).
Proof.
  pose proof (big_gt_1 (prec := 53) (emax := 1024)) as B1.
  destruct (fl_of_exact (prec := 53) (emax := 1024) (-1)) as [F1 E1].
  { replace (-1) with (- (1)) by lra. apply fmt_opp, fmt_1. } { rewrite Rabs_left; lra. }
  destruct (fl_of_exact (prec := 53) (emax := 1024) (3 * bpow radix2 (- (53) - 1))) as [F2 E2].
  { change 3 with (IZR 3). apply fmt_scaled; lia. }
  { assert (bpow radix2 (- (53) - 1) < bpow radix2 (-2)) by (apply bpow_lt; lia). change (bpow radix2 (-2)) with (/ 4) in H. pose proof (bpow_gt_0 radix2 (- (53) - 1)). rewrite Rabs_pos_eq by lra. lra. }
  eauto 10.
Qed.
End Examples.
Print Assumptions C93_unit_interval.
Print Assumptions C93_lower_bound.
Print Assumptions C93_exact_width_partial.
Print Assumptions C93_exceeds_max_refuted.
Print Assumptions C93_wide_range_refuted.
